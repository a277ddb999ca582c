From Coq Require Import ZArith List Bool Lia Sorted Permutation.
From Coq Require Import ZifyBool ZifyNat.
From Verif Require Import Prelude AxisModel AxisSpec.
Import ListNotations.
Open Scope Z_scope.

Section AxisProofs.
  Context {O : KnotOrd}.
  Implicit Types (U : Z -> O) (m k p : Z).

  (** ** scans *)
  Lemma scan_up_spec : forall P fuel j m,
    j <= m -> Z.of_nat fuel = m - j ->
    let r := scan_up P fuel j m in
    j <= r <= m /\ (forall i, j <= i < r -> P i = false) /\ (r < m -> P r = true).
  Proof.
    induction fuel as [|f IH]; intros j m Hj Hf; cbn [scan_up].
    - repeat split; intros; try lia.
    - destruct (P j) eqn:E.
      + repeat split; intros; try lia; auto.
      + destruct (IH (j+1) m) as (H1 & H2 & H3); try lia.
        repeat split; try lia; auto.
        intros i Hi. destruct (Z.eq_dec i j) as [->|]; auto. apply H2. lia.
  Qed.

  Lemma scan_down_spec : forall P fuel j,
    0 <= j -> Z.of_nat fuel = j ->
    let r := scan_down P fuel j in
    0 <= r <= j /\ (forall i, r < i <= j -> P i = false) /\ (0 < r -> P r = true).
  Proof.
    induction fuel as [|f IH]; intros j Hj Hf; cbn [scan_down].
    - repeat split; intros; try lia.
    - destruct (P j) eqn:E.
      + repeat split; intros; try lia; auto.
      + destruct (IH (j-1)) as (H1 & H2 & H3); try lia.
        repeat split; try lia; auto.
        intros i Hi. destruct (Z.eq_dec i j) as [->|]; auto. apply H2. lia.
  Qed.

  Lemma next_knot_up_spec : forall m U k, 0 <= k < m ->
    let r := next_knot_up m U k in
    k < r <= m /\ (forall i, k < i < r -> kle (U i) (U k)) /\ (r < m -> klt (U k) (U r)).
  Proof.
    intros m U k Hk r. unfold r, next_knot_up.
    replace (k <? 0) with false by lia.
    destruct (scan_up_spec (fun j => kltb (U k) (U j)) (Z.to_nat (m-(k+1))) (k+1) m) as (H1 & H2 & H3); try lia.
    split; [lia|]. split; [|exact H3].
    intros i Hi. apply H2. lia.
  Qed.

  Lemma next_knot_up_ge : forall m U k, m <= k + 1 -> 0 <= k -> next_knot_up m U k = m.
  Proof.
    intros. unfold next_knot_up. replace (k <? 0) with false by lia.
    replace (Z.to_nat (m-(k+1))) with 0%nat by lia. reflexivity.
  Qed.

  Lemma next_knot_down_spec : forall m U k, 0 < k <= m ->
    let r := next_knot_down m U k in
    0 <= r < k /\ (forall i, r < i < k -> kle (U k) (U i)) /\ (0 < r -> klt (U r) (U k)).
  Proof.
    intros m U k Hk r. unfold r, next_knot_down.
    replace (k >? m) with false by lia.
    destruct (scan_down_spec (fun j => kltb (U j) (U k)) (Z.to_nat (k-1)) (k-1)) as (H1 & H2 & H3); try lia.
    split; [lia|]. split; [|exact H3].
    intros i Hi. apply H2. lia.
  Qed.

  (** ** monotonicity checks *)
  Lemma nondecreasing_steps : forall m U,
    nondecreasing m U <-> (forall k, 1 <= k <= m -> kle (U (k-1)) (U k)).
  Proof.
    intros m U. split.
    - intros H k Hk. apply H; lia.
    - intros H i j Hi Hij Hj.
      assert (Hind : forall d, 0 <= d -> i + d <= m -> kle (U i) (U (i+d))).
      { intros d Hd. pattern d. apply natlike_ind; [| |exact Hd].
        - intros _. replace (i+0) with i by lia. apply kle_refl.
        - intros x Hx IH Hm. eapply kle_trans; [apply IH; lia|].
          replace (i + x) with (i + Z.succ x - 1) by lia. apply H; lia. }
      replace j with (i + (j-i)) by lia. apply Hind; lia.
  Qed.

  Lemma increasing_ok_spec : forall m U, increasing_ok m U = true <-> nondecreasing m U.
  Proof.
    intros. rewrite nondecreasing_steps. unfold increasing_ok. rewrite forallb_forall.
    split; intros H k Hk.
    - specialize (H k). rewrite in_zseq in H. specialize (H ltac:(lia)).
      unfold kle. destruct (kltb (U k) (U (k-1))); auto.
    - apply in_zseq in Hk. rewrite H by lia. reflexivity.
  Qed.

  (** ** multiplicity *)
  (* In a sorted array, run of equal values <=> bounded window. *)
  Definition mult_bound p m U : Prop :=
    forall i, 1 <= i -> i + p <= m - 1 -> klt (U i) (U (i+p)).

  Lemma filter_length_le_window : forall (P : Z -> bool) p s n,
    0 <= p ->
    (forall i j, s <= i -> i <= j -> j < s + n -> P i = true -> P j = true -> j < i + p) ->
    Z.of_nat (length (filter P (zseq s n))) <= p.
  Proof.
    intros P p s n Hp H.
    destruct (Z.leb_spec n 0) as [Hn|Hn].
    { rewrite zseq_nil by lia. simpl. lia. }
    destruct (filter P (zseq s n)) as [|x l] eqn:E; [simpl; lia|].
    assert (Hx : In x (zseq s n) /\ P x = true).
    { apply filter_In. rewrite E. left; reflexivity. }
    destruct Hx as [Hx HPx]. rewrite in_zseq in Hx.
    (* the minimal element is x: all others in (x, x+p) ; use NoDup inclusion in zseq *)
    assert (Hmin : exists a, s <= a < s + n /\ P a = true /\ forall j, In j (x :: l) -> a <= j).
    { clear H. assert (HB : forall y, In y (x::l) -> s <= y < s+n /\ P y = true).
      { intros y Hy. rewrite <- E in Hy. apply filter_In in Hy. destruct Hy as [Hy1 Hy2].
        apply in_zseq in Hy1. split; [lia|auto]. }
      clear E. induction l as [|y l IH].
      - exists x. repeat split; try lia; auto. intros j [->|[]]; lia.
      - destruct IH as (a & Ha & HPa & Hall).
        { intros z Hz. apply HB. simpl in *; tauto. }
        destruct (HB y) as [Hy HPy]; [simpl; auto|].
        destruct (Z.leb_spec a y).
        + exists a. repeat split; try lia; auto. intros j [->|[->|Hj]]; try lia.
          apply Hall; left; auto. apply Hall; right; auto.
        + exists y. repeat split; try lia; auto. intros j [->|[->|Hj]]; try lia.
          specialize (Hall j (or_introl eq_refl)); lia.
          specialize (Hall j (or_intror Hj)); lia. }
    destruct Hmin as (a & Ha & HPa & Hall).
    assert (Hincl : incl (x :: l) (zseq a p)).
    { intros j Hj. apply in_zseq. specialize (Hall j Hj).
      rewrite <- E in Hj. apply filter_In in Hj. destruct Hj as [Hj1 Hj2]. apply in_zseq in Hj1.
      specialize (H a j ltac:(lia) ltac:(lia) ltac:(lia) HPa Hj2). lia. }
    assert (ND : NoDup (x :: l)).
    { rewrite <- E. apply NoDup_filter. apply NoDup_zseq. }
    pose proof (NoDup_incl_length ND Hincl) as HL. rewrite length_zseq in HL. lia.
  Qed.

  Lemma count_eq_mult_bound : forall p m U,
    1 <= p -> nondecreasing m U ->
    ((forall v, count_eq U 1 (m-1) v <= p) <-> mult_bound p m U).
  Proof.
    intros p m U Hp Hnd. split.
    - intros H i Hi Him.
      destruct (klt_or_le (U i) (U (i+p))) as [|Hle]; auto. exfalso.
      specialize (H (U i)). unfold count_eq in H.
      assert (Hincl : incl (zseq i (p+1)) (filter (fun j => keqb (U j) (U i)) (zseq 1 (m-1-1+1)))).
      { intros j Hj. apply in_zseq in Hj. apply filter_In. rewrite in_zseq. split; [lia|].
        apply keqb_spec. apply keq_le. split.
        - eapply kle_trans; [|exact Hle]. apply Hnd; lia.
        - apply Hnd; lia. }
      pose proof (NoDup_incl_length (NoDup_zseq _ _) Hincl) as HL.
      rewrite length_zseq in HL. lia.
    - intros H v. unfold count_eq. apply filter_length_le_window; [lia|].
      intros i j Hi Hij Hj Hvi Hvj.
      apply keqb_spec in Hvi. apply keqb_spec in Hvj. apply keq_le in Hvi. apply keq_le in Hvj.
      destruct (Z.ltb_spec j (i+p)) as [|Hge]; auto. exfalso.
      specialize (H i ltac:(lia) ltac:(lia)). apply klt_not_le in H. apply H.
      eapply kle_trans; [apply Hnd with (j:=j); lia|].
      eapply kle_trans; [apply Hvj|apply Hvi].
  Qed.

  Lemma multiplicity_loop_spec : forall p m U, 1 <= p -> nondecreasing m U ->
    forall fuel k, 1 <= k -> m - k <= Z.of_nat fuel ->
    exists b, multiplicity_loop p m U fuel k = Some b /\
      (b = true <-> (forall i, k <= i -> i + p <= m - 1 -> klt (U i) (U (i+p)))).
  Proof.
    intros p m U Hp Hnd. induction fuel as [|f IH]; intros k Hk Hf; cbn [multiplicity_loop].
    - replace (k <? m) with false by lia. exists true. split; auto. split; auto. intros _ i; lia.
    - destruct (Z.ltb_spec k m) as [Hkm|Hkm].
      2:{ exists true. split; auto. split; auto. intros _ i; lia. }
      destruct (next_knot_up_spec m U k ltac:(lia)) as (H1 & H2 & H3).
      set (j := next_knot_up m U k) in *.
      destruct (Z.gtb_spec (j-k) p) as [Hs|Hs].
      + exists false. split; auto. split; [discriminate|].
        intros H. exfalso.
        specialize (H k ltac:(lia) ltac:(lia)). apply klt_not_le in H. apply H. apply H2. lia.
      + destruct (IH j ltac:(lia) ltac:(lia)) as (b & Hb & Hiff). exists b. split; auto.
        rewrite Hiff. split.
        * intros H i Hi Him. destruct (Z.leb_spec j i) as [Hji|Hji]; [apply H; lia|].
          (* k <= i < j : U i = U k, i+p >= k+p >= j, so U (i+p) >= U j > U k *)
          apply kle_lt_trans with (U k).
          { destruct (Z.eq_dec i k) as [->|]; [apply kle_refl|apply H2; lia]. }
          apply klt_le_trans with (U j); [apply H3; lia|apply Hnd; lia].
        * intros H i Hi Him. apply H; lia.
  Qed.

  Lemma multiplicity_ok_spec : forall p m U, 1 <= p -> 2*p+1 <= m -> nondecreasing m U ->
    exists b, multiplicity_ok p m U = Some b /\ (b = true <-> mult_bound p m U).
  Proof.
    intros. unfold multiplicity_ok. apply multiplicity_loop_spec; auto; lia.
  Qed.

  (** ** spans *)
  Lemma spans_loop_spec : forall p m U, 1 <= p -> 2*p+1 <= m -> nondecreasing m U ->
    forall fuel k, p <= k -> k <= m - p -> m - k < Z.of_nat fuel ->
    exists l, spans_loop m U (m-p) fuel k = Some l /\
      StronglySorted Z.lt l /\
      (forall x, In x l <-> k <= x <= m-p-1 /\ klt (U x) (U (x+1))).
  Proof.
    intros p m U Hp Hm Hnd. induction fuel as [|f IH]; intros k Hk Hkm Hf; [lia|].
    cbn [spans_loop].
    destruct (next_knot_up_spec m U k ltac:(lia)) as (H1 & H2 & H3).
    set (j := next_knot_up m U k) in *.
    destruct (Z.leb_spec j (m-p)) as [Hj|Hj].
    - destruct (IH j ltac:(lia) ltac:(lia) ltac:(lia)) as (l & Hl & Hs & Hin).
      rewrite Hl. exists (j-1 :: l). split; auto. split.
      + constructor; auto. apply Forall_forall. intros x Hx. apply Hin in Hx. lia.
      + intros x. simpl. rewrite Hin. split.
        * intros [<-|[Hx Hlt]].
          { split; [lia|]. replace (j-1+1) with j by lia.
            apply kle_lt_trans with (U k); [|apply H3; lia].
            destruct (Z.eq_dec (j-1) k) as [->|]; [apply kle_refl|apply H2; lia]. }
          { split; [lia|auto]. }
        * intros [Hx Hlt]. destruct (Z.leb_spec j x) as [|Hxj]; [right; split; [lia|auto]|].
          left. destruct (Z.eq_dec (j-1) x) as [|Hne]; auto. exfalso.
          apply klt_not_le in Hlt. apply Hlt.
          apply kle_trans with (U k); [apply H2; lia|apply Hnd; lia].
    - exists []. split; auto. split; [constructor|].
      intros x; simpl. split; [tauto|]. intros [Hx Hlt].
      apply klt_not_le in Hlt. apply Hlt.
      apply kle_trans with (U k); [apply H2; lia|apply Hnd; lia].
  Qed.

  Lemma get_spans_spec : forall p m U, 1 <= p -> 2*p+1 <= m -> nondecreasing m U ->
    exists l, get_spans p m U = Some l /\ is_element_list p m U l.
  Proof.
    intros p m U Hp Hm Hnd. unfold get_spans.
    destruct (spans_loop_spec p m U Hp Hm Hnd (Z.to_nat (m+2)) p ltac:(lia) ltac:(lia) ltac:(lia))
      as (l & Hl & Hs & Hin).
    exists l. split; auto. split; auto.
  Qed.

  (** ** C01: exact acceptance *)
  Lemma set_knots_exact : forall (a : axis O) m U,
    let (st, a') := axis_set_knots m U a in
    (st = Ok <-> valid_knots (ax_p a) m U) /\
    (st = Ok -> ax_p a' = ax_p a /\ ax_m a' = m /\ ax_U a' = U /\ ax_periodic a' = ax_periodic a) /\
    (st <> Ok -> a' = a) /\ st <> ErrFuel.
  Proof.
    intros a m U. unfold axis_set_knots, valid_knots.
    destruct (Z.ltb_spec (ax_p a) 1) as [Hp|Hp].
    { repeat split; try discriminate; try lia; auto. }
    destruct (Z.ltb_spec m (2 * ax_p a + 1)) as [Hm|Hm].
    { repeat split; try discriminate; try lia; auto. }
    pose proof (increasing_ok_spec m U) as HI.
    destruct (increasing_ok m U); cbn [negb].
    2:{ assert (~ nondecreasing m U) by (rewrite <- HI; discriminate).
        repeat split; try discriminate; auto. tauto. }
    assert (Hnd : nondecreasing m U) by (apply HI; auto). clear HI.
    destruct (multiplicity_ok_spec (ax_p a) m U Hp Hm Hnd) as (b & Hb & Hiff). rewrite Hb.
    rewrite <- (count_eq_mult_bound (ax_p a) m U Hp Hnd) in Hiff.
    destruct b.
    - destruct (get_spans_spec (ax_p a) m U Hp Hm Hnd) as (l & Hl & _). rewrite Hl.
      assert (forall v, count_eq U 1 (m-1) v <= ax_p a) by (apply Hiff; auto).
      repeat split; cbn; auto; try congruence.
    - assert (~ forall v, count_eq U 1 (m-1) v <= ax_p a) by (rewrite <- Hiff; discriminate).
      repeat split; try discriminate; auto. tauto.
  Qed.

  (** ** C02 *)
  Lemma set_knots_spans : forall (a : axis O) m U a',
    axis_set_knots m U a = (Ok, a') ->
    exists l, ax_span a' = Some l /\ ax_nel a' = Z.of_nat (length l) /\
              is_element_list (ax_p a) m U l.
  Proof.
    intros a m U a' H. pose proof (set_knots_exact a m U) as HE. rewrite H in HE.
    destruct HE as (H1 & _). destruct H1 as [H1 _]. specialize (H1 eq_refl).
    destruct H1 as (Hp & Hm & Hnd & Hc).
    unfold axis_set_knots in H.
    replace (ax_p a <? 1) with false in H by lia.
    replace (m <? 2 * ax_p a + 1) with false in H by lia.
    apply increasing_ok_spec in Hnd. rewrite Hnd in H. cbn [negb] in H.
    apply increasing_ok_spec in Hnd.
    destruct (multiplicity_ok (ax_p a) m U) as [[|]|]; try discriminate.
    destruct (get_spans_spec (ax_p a) m U Hp Hm Hnd) as (l & Hl & HL). rewrite Hl in H.
    inversion H; subst; cbn. exists l. auto.
  Qed.

  (* consecutive members of a strictly increasing exhaustive list *)
  Lemma sorted_consecutive : forall l, StronglySorted Z.lt l ->
    forall i d, (S i < length l)%nat ->
      nth i l d < nth (S i) l d /\ forall x, In x l -> ~ (nth i l d < x < nth (S i) l d).
  Proof.
    induction l as [|a l IH]; intros HS i d Hi; [simpl in Hi; lia|].
    inversion HS as [|? ? HS' HF]; subst. rewrite Forall_forall in HF.
    destruct i as [|i].
    - destruct l as [|b l]; [simpl in Hi; lia|]. cbn [nth].
      split; [apply HF; left; auto|].
      intros x [<-|Hx]; [lia|]. destruct Hx as [<-|Hx]; [lia|].
      inversion HS' as [|? ? _ HF']; subst. rewrite Forall_forall in HF'. specialize (HF' x Hx). lia.
    - change (nth (S i) (a::l) d) with (nth i l d). change (nth (S (S i)) (a::l) d) with (nth (S i) l d).
      destruct (IH HS' i d ltac:(simpl in Hi; lia)) as [H1 H2]. split; auto.
      intros x [<-|Hx]; [|auto].
      assert (a < nth i l d) by (apply HF; apply nth_In; simpl in Hi; lia). lia.
  Qed.

  (* values between consecutive breakpoints are constant *)
  Lemma flat_between : forall m U, nondecreasing m U -> forall a b, 0 <= a -> a <= b -> b <= m ->
    (forall x, a <= x < b -> ~ klt (U x) (U (x+1))) -> keq (U a) (U b).
  Proof.
    intros m U Hnd a b Ha Hab Hb H. apply keq_le. split; [apply Hnd; lia|].
    assert (Hi : forall d, 0 <= d -> a + d <= b -> kle (U (a+d)) (U a)).
    { intros d Hd. pattern d; apply natlike_ind; [| |exact Hd].
      - intros _. replace (a+0) with a by lia. apply kle_refl.
      - intros x Hx IH Hle. eapply kle_trans; [|apply IH; lia].
        specialize (H (a+x) ltac:(lia)). apply kle_not_lt in H.
        replace (a + Z.succ x) with (a + x + 1) by lia. exact H. }
    replace b with (a + (b-a)) by lia. apply Hi; lia.
  Qed.

  Lemma elements_contiguous : forall p m U l, 1 <= p -> 2*p+1 <= m -> nondecreasing m U ->
    is_element_list p m U l -> forall i d, (S i < length l)%nat ->
    keq (U (nth i l d + 1)) (U (nth (S i) l d)).
  Proof.
    intros p m U l Hp Hm Hnd [Hin Hs] i d Hi.
    destruct (sorted_consecutive l Hs i d Hi) as [H1 H2].
    assert (I1 : is_element p m U (nth i l d)) by (apply Hin, nth_In; lia).
    assert (I2 : is_element p m U (nth (S i) l d)) by (apply Hin, nth_In; lia).
    unfold is_element in *. apply flat_between with m; auto; try lia.
    intros x Hx Hlt. apply (H2 x); [|lia]. apply Hin. split; [lia|auto].
  Qed.

  Lemma elements_cover_ends : forall p m U l, 1 <= p -> 2*p+1 <= m -> nondecreasing m U ->
    is_element_list p m U l -> l <> [] -> forall d,
    keq (U p) (U (hd d l)) /\ keq (U (last l d + 1)) (U (m-p)).
  Proof.
    intros p m U l Hp Hm Hnd [Hin Hs] Hne d. split.
    - destruct l as [|a l]; [congruence|]. cbn [hd].
      assert (I1 : is_element p m U a) by (apply Hin; left; auto). unfold is_element in *.
      apply flat_between with m; auto; try lia.
      intros x Hx Hlt. assert (In x (a::l)) as [|Hx'] by (apply Hin; split; [lia|auto]); [lia|].
      inversion Hs as [|? ? _ HF]; subst. rewrite Forall_forall in HF. specialize (HF x Hx'). lia.
    - destruct (exists_last Hne) as (l' & b & ->). rewrite last_last.
      assert (I1 : is_element p m U b) by (apply Hin, in_or_app; right; left; auto). unfold is_element in *.
      apply flat_between with m; auto; try lia.
      intros x Hx Hlt. assert (Hx' : In x (l' ++ [b])) by (apply Hin; split; [lia|auto]).
      assert (Hb : forall y, In y (l'++[b]) -> y <= b).
      { clear - Hs. induction l' as [|c l' IH]; cbn in *.
        - intros y [<-|[]]; lia.
        - inversion Hs as [|? ? HS' HF]; subst. rewrite Forall_forall in HF.
          intros y [<-|Hy]; [|auto]. specialize (HF b). rewrite in_app_iff in HF. cbn in HF.
          specialize (HF (or_intror (or_introl eq_refl))). lia. }
      specialize (Hb x Hx'). lia.
  Qed.

  Lemma element_list_unique : forall p m U l l',
    is_element_list p m U l -> is_element_list p m U l' -> l = l'.
  Proof.
    intros p m U l l' [H1 S1] [H2 S2].
    assert (Heq : forall k, In k l <-> In k l') by (intros; rewrite H1, H2; tauto).
    clear H1 H2. revert l' S2 Heq. induction l as [|a l IH]; intros [|b l'] S2 Heq.
    - reflexivity.
    - exfalso. apply (Heq b). left; auto.
    - exfalso. apply (Heq a). left; auto.
    - inversion S1 as [|? ? S1' F1]; subst. inversion S2 as [|? ? S2' F2]; subst.
      rewrite Forall_forall in F1, F2.
      assert (a = b).
      { destruct (proj1 (Heq a) (or_introl eq_refl)) as [|Ha]; auto.
        destruct (proj2 (Heq b) (or_introl eq_refl)) as [|Hb]; auto.
        specialize (F1 _ Hb). specialize (F2 _ Ha). lia. }
      subst b. f_equal. apply IH; auto. intros k. split; intros Hk.
      + destruct (proj1 (Heq k) (or_intror Hk)) as [<-|]; auto. specialize (F1 _ Hk). lia.
      + destruct (proj2 (Heq k) (or_intror Hk)) as [<-|]; auto. specialize (F2 _ Hk). lia.
  Qed.

  (** ** nnp *)
  Lemma mult_bound_top : forall p m U, 1 <= p -> 2*p+1 <= m -> mult_bound p m U ->
    1 <= next_knot_up m U (m-p) - (m-p) <= p.
  Proof.
    intros p m U Hp Hm Hb.
    destruct (next_knot_up_spec m U (m-p) ltac:(lia)) as (H1 & H2 & H3).
    split; [lia|]. lia.
  Qed.

  Lemma axis_nnp_bounds : forall per p m U, 1 <= p -> 2*p+1 <= m ->
    1 <= axis_nnp per p m U <= m - p.
  Proof.
    intros per p m U Hp Hm. unfold axis_nnp. destruct per; [|lia].
    replace (m-p-1+1) with (m-p) by lia.
    destruct (next_knot_up_spec m U (m-p) ltac:(lia)) as (H1 & H2 & H3). lia.
  Qed.

  (** number of knots equal to U[m-p] from index m-p on, among U[m-p..m-1] *)
  Lemma end_multiplicity : forall p m U, 1 <= p -> 2*p+1 <= m -> nondecreasing m U ->
    next_knot_up m U (m-p) - (m-p) = count_eq U (m-p) (m-1) (U (m-p)).
  Proof.
    intros p m U Hp Hm Hnd. unfold count_eq.
    destruct (next_knot_up_spec m U (m-p) ltac:(lia)) as (H1 & H2 & H3).
    set (j := next_knot_up m U (m-p)) in *.
    replace (m-1-(m-p)+1) with ((j-(m-p)) + (m-j)) by lia.
    rewrite zseq_app by lia. rewrite filter_app, app_length.
    assert (E1 : filter (fun i => keqb (U i) (U (m-p))) (zseq (m-p) (j-(m-p))) = zseq (m-p) (j-(m-p))).
    { assert (Hall : forall i, In i (zseq (m-p) (j-(m-p))) -> keqb (U i) (U (m-p)) = true).
      { intros i Hi. apply in_zseq in Hi. apply keqb_spec, keq_le. split.
        - destruct (Z.eq_dec i (m-p)) as [->|]; [apply kle_refl|apply H2; lia].
        - apply Hnd; lia. }
      revert Hall. induction (zseq (m-p) (j-(m-p))) as [|x l IH]; intros Hall; auto.
      cbn. rewrite Hall by (left; auto). f_equal. apply IH. intros; apply Hall; right; auto. }
    assert (E2 : filter (fun i => keqb (U i) (U (m-p))) (zseq (m-p+(j-(m-p))) (m-j)) = []).
    { assert (Hall : forall i, In i (zseq (m-p+(j-(m-p))) (m-j)) -> keqb (U i) (U (m-p)) = false).
      { intros i Hi. apply in_zseq in Hi. destruct (keqb (U i) (U (m-p))) eqn:E; auto.
        apply keqb_spec, keq_le in E. destruct E as [E _]. exfalso.
        assert (Hlt : klt (U (m-p)) (U j)) by (apply H3; lia).
        apply klt_not_le in Hlt. apply Hlt. eapply kle_trans; [|exact E]. apply Hnd; lia. }
      revert Hall. induction (zseq (m-p+(j-(m-p))) (m-j)) as [|x l IH]; intros Hall; auto.
      cbn. rewrite Hall by (left; auto). apply IH. intros; apply Hall; right; auto. }
    rewrite E1, E2, length_zseq. cbn [length]. lia.
  Qed.

  Lemma nonempty_has_element : forall p m U, 1 <= p -> 2*p+1 <= m -> nondecreasing m U ->
    (klt (U p) (U (m-p)) <-> exists k, is_element p m U k).
  Proof.
    intros p m U Hp Hm Hnd. split.
    - intros Hlt. destruct (get_spans_spec p m U Hp Hm Hnd) as (l & _ & Hin & Hs).
      destruct l as [|k l].
      + exfalso. apply klt_not_le in Hlt. apply Hlt.
        assert (HK : keq (U p) (U (m-p))).
        { apply flat_between with m; auto; try lia.
          intros x Hx Hl. apply (Hin x). split; [lia|auto]. }
        apply keq_le in HK. exact (proj2 HK).
      + exists k. apply Hin. left; auto.
    - intros (k & Hk & Hlt). apply kle_lt_trans with (U k); [apply Hnd; lia|].
      apply klt_le_trans with (U (k+1)); auto. apply Hnd; lia.
  Qed.

  (** ** FindSpan *)
  Lemma find_span_loop_spec : forall u U fuel low high span,
    low < high -> span = (high + low) / 2 ->
    high - low <= Z.of_nat fuel ->
    kle (U low) u -> klt u (U high) ->
    exists s, find_span_loop u U fuel low high span = Some s /\
       low <= s < high /\ kle (U s) u /\ klt u (U (s+1)).
  Proof.
    intros u U. induction fuel as [|f IH]; intros low high span Hlh Hspan Hf Hlo Hhi; [lia|].
    cbn [find_span_loop].
    destruct (kltb u (U span)) eqn:E1; cbn [orb].
    - assert (span <> low).
      { intros ->. unfold kle in Hlo. congruence. }
      destruct (IH low span ((span+low)/2)) as (s & Hs & Hb & H1 & H2); auto; try lia.
      exists s. repeat split; auto; lia.
    - destruct (kltb u (U (span+1))) eqn:E2; cbn [negb].
      + exists span. repeat split; auto; try lia.
      + assert (span + 1 <> high).
        { intros Heq. rewrite Heq in E2. unfold klt in Hhi. congruence. }
        assert (low <> span).
        { intros Heq. lia. }
        destruct (IH span high ((high+span)/2)) as (s & Hs & Hb & H1 & H2); auto; try lia.
        exists s. repeat split; auto; lia.
  Qed.

  Lemma find_span_spec : forall n p u U, p <= n ->
    exists k, find_span n p u U = Some k /\ p <= k <= n /\
      ((kle u (U p) /\ k = p) \/ (klt (U p) u /\ kle (U (n+1)) u /\ k = n) \/
       (kle (U k) u /\ klt u (U (k+1)))).
  Proof.
    intros n p u U Hpn. unfold find_span.
    destruct (kltb (U p) u) eqn:E1; cbn [negb].
    - destruct (kltb u (U (n+1))) eqn:E2; cbn [negb].
      + destruct (find_span_loop_spec u U (Z.to_nat (n+1-p)) p (n+1) ((n+1+p)/2)) as (s & Hs & Hb & H1 & H2);
          auto; try lia. { apply klt_le; auto. }
        exists s. repeat split; auto; try lia.
      + exists n. repeat split; auto; try lia.
    - exists p. repeat split; auto; try lia.
  Qed.
End AxisProofs.
