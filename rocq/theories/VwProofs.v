(** Proofs about what IGAView prints. *)
From Coq Require Import ZArith List Bool Lia Sorted Reals.
From Coq Require Import ZifyBool ZifyNat.
From Verif Require Import Prelude AxisModel AxisSpec AxisProofs VwModel VwSpec.
Import ListNotations.
Open Scope Z_scope.

Section View.
  Context {O : KnotOrd}.
  Variables (p m : Z) (U : Z -> O).
  Hypothesis Hp : 1 <= p. Hypothesis Hm : 2 * p + 1 <= m. Hypothesis Hnd : nondecreasing m U.

  Lemma filter_true : forall (f : Z -> bool) l, (forall i, In i l -> f i = true) -> filter f l = l.
  Proof using. induction l as [|x l IH]; intros H; auto. cbn. rewrite H by (left; auto). f_equal. apply IH. intros; apply H; right; auto. Qed.
  Lemma filter_false : forall (f : Z -> bool) l, (forall i, In i l -> f i = false) -> filter f l = [].
  Proof using. induction l as [|x l IH]; intros H; auto. cbn. rewrite H by (left; auto). apply IH. intros; apply H; right; auto. Qed.

  (** k begins a group of equal knots *)
  Definition first_of (k : Z) : Prop := 1 <= k /\ (k = 1 \/ klt (U (k - 1)) (U k)).

  Lemma group : forall k i, first_of k -> k < m -> k <= i < next_knot_up m U k ->
    count_eq U 1 (m - 1) (U i) = next_knot_up m U k - k.
  Proof using All.
    intros k i [Hk Hf] Hkm Hi. destruct (next_knot_up_spec m U k ltac:(lia)) as (H1 & H2 & H3).
    set (j := next_knot_up m U k) in *.
    assert (Ei : keq (U i) (U k)).
    { apply keq_le. split; [|apply Hnd; lia]. destruct (Z.eq_dec i k) as [->|]; [apply kle_refl|apply H2; lia]. }
    apply keq_le in Ei. destruct Ei as [Ei1 Ei2].
    unfold count_eq. replace (m - 1 - 1 + 1) with ((k - 1) + ((j - k) + (m - j))) by lia.
    rewrite zseq_app by lia. rewrite zseq_app by lia. rewrite !filter_app, !app_length.
    rewrite (filter_false _ (zseq 1 (k - 1))), (filter_true _ (zseq (1 + (k - 1)) (j - k))),
      (filter_false _ (zseq (1 + (k - 1) + (j - k)) (m - j))).
    - rewrite length_zseq. cbn [length]. lia.
    - intros x Hx. apply in_zseq in Hx. apply not_true_is_false. intros E. apply keqb_spec, keq_le in E. destruct E as [E1 E2].
      assert (klt (U k) (U j)) by (apply H3; lia). apply (klt_irrefl (U k)).
      eapply klt_le_trans; [eassumption|]. eapply kle_trans; [apply (Hnd j x); lia|]. eapply kle_trans; eassumption.
    - intros x Hx. apply in_zseq in Hx. apply keqb_spec, keq_le. split.
      + eapply kle_trans; [|exact Ei2]. destruct (Z.eq_dec x k) as [->|]; [apply kle_refl|apply H2; lia].
      + eapply kle_trans; [exact Ei1|]. apply Hnd; lia.
    - intros x Hx. apply in_zseq in Hx. apply not_true_is_false. intros E. apply keqb_spec, keq_le in E. destruct E as [E1 E2].
      destruct Hf as [->|Hf]; [lia|]. apply (klt_irrefl (U k)).
      eapply kle_lt_trans; [|exact Hf]. eapply kle_trans; [exact Ei2|]. eapply kle_trans; [exact E2|]. apply Hnd; lia.
  Qed.

  Definition at_index (ks ke c : Z) : Prop := exists i, ks <= i < ke /\ c = p - count_eq U 1 (m - 1) (U i).

  Lemma cont_loop_spec : forall ke, ke <= m -> forall fuel k mn mx, first_of k -> m - k <= Z.of_nat fuel ->
    exists a b, cont_loop p m U ke fuel k mn mx = Some (a, b) /\
      a <= mn /\ mx <= b /\ (forall c, at_index k ke c -> a <= c <= b) /\
      (a = mn \/ at_index k ke a) /\ (b = mx \/ at_index k ke b).
  Proof using All.
    intros ke Hke. induction fuel as [|f IH]; intros k mn mx Hk Hf; cbn [cont_loop].
    - replace (k <? ke) with false by lia. exists mn, mx. split; [reflexivity|]. repeat split; try lia; destruct H as (i & Hi & _); lia.
    - destruct (Z.ltb_spec k ke) as [Hlt|Hge].
      2:{ exists mn, mx. split; [reflexivity|]. repeat split; try lia; destruct H as (i & Hi & _); lia. }
      destruct (next_knot_up_spec m U k ltac:(destruct Hk; lia)) as (H1 & H2 & H3).
      assert (G := fun i => group k i Hk ltac:(lia)).
      set (j := next_knot_up m U k) in *.
      assert (Hself : at_index k ke (p - (j - k))) by (exists k; split; [lia|]; rewrite G by lia; reflexivity).
      destruct (Z.lt_ge_cases j m) as [Hjm|Hjm].
      + assert (Hj : first_of j).
        { destruct Hk. split; [lia|]. right. eapply kle_lt_trans; [|apply H3; lia].
          destruct (Z.eq_dec (j - 1) k) as [->|]; [apply kle_refl|apply H2; lia]. }
        destruct (IH j (Z.min mn (p - (j - k))) (Z.max mx (p - (j - k))) Hj ltac:(lia)) as (a & b & E & A & B & C & D1 & D2).
        exists a, b. split; [exact E|].
        assert (W : forall c, at_index j ke c -> at_index k ke c) by (intros c (i & Hi & Ec); exists i; split; [lia|exact Ec]).
        split; [lia|]. split; [lia|]. split; [|split].
        * intros c (i & Hi & ->). destruct (Z.lt_ge_cases i j) as [Hij|Hij].
          -- rewrite G by lia. lia.
          -- apply C. exists i. split; [lia|reflexivity].
        * destruct D1 as [D1|D1]; [|right; auto]. destruct (Z.min_spec mn (p - (j - k))) as [[_ M]|[_ M]]; rewrite M in D1; subst a; auto.
        * destruct D2 as [D2|D2]; [|right; auto]. destruct (Z.max_spec mx (p - (j - k))) as [[_ M]|[_ M]]; rewrite M in D2; subst b; auto.
      + exists (Z.min mn (p - (j - k))), (Z.max mx (p - (j - k))).
        split.
        { clear IH. destruct f; cbn [cont_loop]; replace (j <? ke) with false by lia; reflexivity. }
        split; [lia|]. split; [lia|]. split; [|split].
        * intros c (i & Hi & ->). rewrite G by lia. lia.
        * destruct (Z.min_spec mn (p - (j - k))) as [[_ M]|[_ M]]; rewrite M; auto.
        * destruct (Z.max_spec mx (p - (j - k))) as [[_ M]|[_ M]]; rewrite M; auto.
  Qed.

  Hypothesis Hmult : forall v, count_eq U 1 (m - 1) v <= p.

  Lemma count_pos : forall i, 1 <= i <= m - 1 -> 1 <= count_eq U 1 (m - 1) (U i).
  Proof using Hp Hm.
    intros i Hi. unfold count_eq. assert (In i (filter (fun k => keqb (U k) (U i)) (zseq 1 (m - 1 - 1 + 1)))).
    { apply filter_In. split; [apply in_zseq; lia|]. apply keqb_spec, keq_le. split; apply kle_refl. }
    destruct (filter (fun k => keqb (U k) (U i)) (zseq 1 (m - 1 - 1 + 1))); [contradiction|cbn [length]; lia].
  Qed.

  (** The loop gives the range of the indices it covers. *)
  Lemma cont_range : forall ks ke, first_of ks -> ks < ke -> ke <= m ->
    exists a b, cont_loop p m U ke (Z.to_nat m) ks p (-1) = Some (a, b) /\
      describes_range (at_index ks ke) (if a =? b then One a else Range a b).
  Proof using All.
    intros ks ke Hk Hlt Hke. assert (Hk1 := proj1 Hk).
    destruct (cont_loop_spec ke Hke (Z.to_nat m) ks p (-1) Hk ltac:(lia)) as (a & b & E & A & B & C & D1 & D2).
    exists a, b. split; [exact E|].
    assert (S0 : at_index ks ke (p - count_eq U 1 (m - 1) (U ks))) by (exists ks; split; [lia|reflexivity]).
    assert (C0 := C _ S0). assert (P0 := count_pos ks ltac:(lia)). assert (M0 := Hmult (U ks)).
    assert (Ia : at_index ks ke a) by (destruct D1 as [D1|D1]; [lia|exact D1]).
    assert (Ib : at_index ks ke b) by (destruct D2 as [D2|D2]; [lia|exact D2]).
    destruct (Z.eqb_spec a b) as [->|Hne]; cbn [describes_range].
    - split; [exact Ib|]. intros c Hc. specialize (C c Hc). lia.
    - split; [specialize (C _ Ia); lia|]. auto.
  Qed.

  Lemma describes_ext : forall (P Q : Z -> Prop) s, (forall c, P c <-> Q c) -> describes_range P s -> describes_range Q s.
  Proof using.
    intros P Q s H. destruct s as [|x|x y]; cbn [describes_range].
    - intros A c Hc. apply (A c), H, Hc.
    - intros [A B]. split; [apply H, A|]. intros c Hc. apply B, H, Hc.
    - intros (A & B & C & D). split; [exact A|]. split; [apply H, B|]. split; [apply H, C|]. intros c Hc. apply D, H, Hc.
  Qed.

  Lemma inside : ends_nonempty p m U -> forall c, at_index (p + 1) (m - p) c <-> cont_at false p m U c.
  Proof using Hp Hm Hnd.
    intros [H1 H2] c. split; intros (i & Hi & Ec).
    - exists i. split; [lia|]. split; [|split; [|exact Ec]].
      + eapply klt_le_trans; [exact H1|apply Hnd; lia].
      + eapply kle_lt_trans; [apply (Hnd i (m - p - 1)); lia|exact H2].
    - destruct Ec as (L & G & Ec). exists i. split; [|exact Ec]. split.
      + destruct (Z.le_gt_cases (p + 1) i) as [|Hc]; [auto|]. exfalso. apply (klt_irrefl (U p)).
        eapply klt_le_trans; [exact L|apply Hnd; lia].
      + destruct (Z.lt_ge_cases i (m - p)) as [|Hc]; [auto|]. exfalso. apply (klt_irrefl (U i)).
        eapply klt_le_trans; [exact G|apply Hnd; lia].
  Qed.

  Lemma around : klt (U p) (U (m - p)) -> seam p m U ->
    let ks := next_knot_down m U p + 1 in let ke := next_knot_up m U (m - p) - 1 in
    first_of ks /\ ks < ke /\ ke <= m /\ forall c, at_index ks ke c <-> cont_at true p m U c.
  Proof using Hp Hm Hnd.
    intros HU Hs ks ke. destruct (next_knot_down_spec m U p ltac:(lia)) as (D1 & D2 & D3).
    destruct (next_knot_up_spec m U (m - p) ltac:(lia)) as (N1 & N2 & N3).
    assert (Kp : forall i, ks <= i -> i <= m -> kle (U p) (U i)).
    { intros i Hi Him. destruct (Z.lt_ge_cases i p); [apply D2; lia|apply Hnd; lia]. }
    assert (Ke : forall i, 0 <= i -> i <= ke -> kle (U i) (U (m - p))).
    { intros i Hi Hie. destruct (Z.le_gt_cases i (m - p)); [apply Hnd; lia|apply N2; lia]. }
    split; [|split; [|split; [lia|]]].
    - split; [lia|]. destruct (Z.eq_dec ks 1) as [|Hne]; [left; auto|right].
      assert (0 < next_knot_down m U p) by lia. replace (ks - 1) with (next_knot_down m U p) by lia.
      eapply klt_le_trans; [apply D3; lia|]. apply Kp; lia.
    - assert (p < m - p) by lia. lia.
    - intros c. split.
      + intros (i & Hi & ->).
        destruct (kltb (U i) (U (m - p))) eqn:E.
        * exists i. split; [lia|]. split; [apply Kp; lia|]. split; [exact E|reflexivity].
        * exists p. split; [lia|]. split; [apply kle_refl|]. split; [exact HU|]. rewrite Hs. f_equal.
          assert (EQ : keq (U i) (U (m - p))) by (split; [exact E|apply Ke; lia]).
          apply keq_le in EQ. destruct EQ as [Q1 Q2].
          unfold count_eq. f_equal. f_equal. apply filter_ext. intros x.
          apply eq_true_iff_eq. rewrite !keqb_spec, !keq_le. split; intros [A B]; split; eauto using kle_trans.
      + intros (i & Hi & L & G & ->). exists i. split; [|reflexivity]. split.
        * destruct (Z.le_gt_cases ks i) as [|Hc]; [auto|]. exfalso. apply (klt_irrefl (U p)).
          eapply kle_lt_trans; [exact L|]. eapply kle_lt_trans; [apply (Hnd i (next_knot_down m U p)); lia|]. apply D3; lia.
        * assert (i < m - p); [|lia]. destruct (Z.lt_ge_cases i (m - p)) as [|Hc]; [auto|]. exfalso. apply (klt_irrefl (U i)).
          eapply klt_le_trans; [exact G|apply Hnd; lia].
  Qed.
End View.
