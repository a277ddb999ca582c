(** Lemmas about the nonzero structure of IGACreateMat. *)
From Coq Require Import ZArith List Bool Lia.
From Coq Require Import ZifyBool ZifyNat.
From Verif Require Import Prelude AxisModel AxisSpec AxisProofs SetupModel SetupProofs MatModel MatSpec.
Import ListNotations.
Open Scope Z_scope.

Section Dir.
  Context {O : KnotOrd}.

  Lemma up_le : forall m (U : Z -> O) i k, nondecreasing m U -> 0 <= i <= k -> k + 1 <= m -> klt (U k) (U (k+1)) ->
    next_knot_up m U i <= k + 1.
  Proof.
    intros m U i k Hnd Hi Hk Hlt. destruct (next_knot_up_spec m U i ltac:(lia)) as (H1 & H2 & H3).
    destruct (Z.le_gt_cases (next_knot_up m U i) (k+1)) as [|G]; auto. exfalso.
    apply klt_not_le in Hlt. apply Hlt. apply kle_trans with (U i); [apply H2; lia|apply Hnd; lia].
  Qed.

  Lemma down_ge : forall m (U : Z -> O) j k, nondecreasing m U -> 0 <= k -> k + 1 <= j <= m -> klt (U k) (U (k+1)) ->
    k <= next_knot_down m U j.
  Proof.
    intros m U j k Hnd Hk Hj Hlt. destruct (next_knot_down_spec m U j ltac:(lia)) as (H1 & H2 & H3).
    destruct (Z.le_gt_cases k (next_knot_down m U j)) as [|G]; auto. exfalso.
    apply klt_not_le in Hlt. apply Hlt. apply kle_trans with (U j); [apply Hnd; lia|].
    apply H2; lia.
  Qed.

  Variable a : axis O.
  Variable l : list Z.
  Hypothesis Hwf : wf a l.
  Hypothesis Hends : ends_nonempty (ax_p a) (ax_m a) (ax_U a).
  Let p := ax_p a.
  Let m := ax_m a.
  Let U := ax_U a.
  Let n := m - p - 1.
  Let N := ax_nnp a.
  Let st (i : Z) := stencil (ax_periodic a) p m U i.

  Lemma dir_facts : 1 <= p /\ 2 * p + 1 <= m /\ nondecreasing m U /\ 1 <= N <= n + 1 /\
    (ax_periodic a = false -> N = n + 1) /\
    (ax_periodic a = true -> N = n - (p - (next_knot_up m U (n + 1) - (n + 1))) /\ n - p + 1 <= N <= n).
  Proof.
    destruct Hwf as (_ & (Hp & Hm & Hnd & Hc) & _ & _ & Hnnp).
    fold p in Hp, Hm, Hnd, Hc, Hnnp. fold m in Hm, Hnd, Hc, Hnnp. fold U in Hnd, Hc, Hnnp. fold N in Hnnp.
    destruct (next_knot_up_spec m U (m - p) ltac:(lia)) as (H1 & _).
    pose proof (end_multiplicity p m U Hp Hm Hnd) as HE.
    assert (E : n + 1 = m - p) by (unfold n; lia). rewrite E.
    split; [auto|]. split; [auto|]. split; [auto|].
    destruct (ax_periodic a).
    - rewrite <- HE in Hnnp. split; [lia|]. split; [discriminate|]. intros _. unfold n in *. lia.
    - split; [lia|]. split; [lia|]. discriminate.
  Qed.

  (** C28, one direction *)
  Lemma stencil_bounds : forall i, 0 <= i <= n -> i - p <= fst (st i) /\ snd (st i) <= i + p /\ 0 <= snd (st i) /\
    (ax_periodic a = false -> 0 <= fst (st i) /\ snd (st i) <= n).
  Proof.
    intros i Hi. destruct dir_facts as (Hp & Hm & Hnd & HN & HNn & HNp).
    destruct (next_knot_up_spec m U i ltac:(unfold n in *; lia)) as (H1 & _).
    destruct (next_knot_down_spec m U (i + p + 1) ltac:(unfold n in *; lia)) as (H2 & _).
    unfold st, stencil. fold n. destruct (ax_periodic a).
    - cbn [negb]. specialize (HNp eq_refl). destruct HNp as [HNe HNp]. destruct (i =? 0) eqn:E.
      + rewrite <- HNe. destruct (next_knot_up_spec m U N ltac:(unfold n in *; lia)) as (H3 & _).
        cbn [fst snd]. split; [lia|]. split; [lia|]. split; [lia|]. discriminate.
      + cbn [fst snd]. split; [lia|]. split; [lia|]. split; [lia|]. discriminate.
    - cbn [negb fst snd]. destruct (i <=? p) eqn:E1; destruct (n - p <=? i) eqn:E2;
        (split; [lia|]; split; [lia|]; split; [unfold n in *; lia|]; intros _; split; [lia|]).
      all: try lia.
      all: assert (i + p + 1 <= n) by lia; lia.
  Qed.

  (** without wrapping (local matrices of MATIS) *)
  Lemma coupling_local : forall k A B, is_element p m U k -> active p A k -> active p B k ->
    fst (st A) <= B <= snd (st A).
  Proof.
    intros k A B [Hk Hlt] HA HB. destruct dir_facts as (Hp & Hm & Hnd & HN & HNn & HNp).
    unfold active in *. fold n in Hk.
    assert (HU : next_knot_up m U A <= k + 1) by (apply up_le; auto; unfold n in *; lia).
    assert (HD : k <= next_knot_down m U (A + p + 1)) by (apply down_ge; auto; unfold n in *; lia).
    unfold st, stencil. fold n. destruct (ax_periodic a) eqn:Pt.
    - cbn [negb]. specialize (HNp eq_refl). destruct HNp as [HNe HNp]. destruct (A =? 0) eqn:E0; cbn [fst snd]; [|lia].
      rewrite <- HNe. assert (next_knot_up m U N <= n + 1); [|lia]. destruct Hends as [_ He].
      fold p m U in He. apply up_le; auto; [lia|unfold n in *; lia|].
      unfold n. replace (m - p - 1 + 1) with (m - p) by lia. exact He.
    - cbn [negb fst snd]. destruct (A <=? p) eqn:E0; destruct (n - p <=? A) eqn:E1; lia.
  Qed.

  Hypothesis Hper : ax_periodic a = true -> periodic_pattern p m N U.

  (** the virtual interval z periods before element k *)
  Lemma pattern_back : ax_periodic a = true -> forall (z : nat) k, 1 <= k - Z.of_nat z * N -> k <= n -> klt (U k) (U (k+1)) ->
    klt (U (k - Z.of_nat z * N)) (U (k - Z.of_nat z * N + 1)).
  Proof.
    intros Hp z. destruct dir_facts as (Hp1 & Hm & Hnd & HN & _).
    induction z as [|z IH]; intros k H1 H2 Hlt.
    - replace (k - Z.of_nat 0 * N) with k by lia. auto.
    - assert (E : k - Z.of_nat (S z) * N = (k - Z.of_nat z * N) - N) by lia. rewrite E in *.
      assert (Hz : 0 <= Z.of_nat z * N) by (apply Z.mul_nonneg_nonneg; lia).
      set (x := Z.of_nat z * N) in *. clearbody x. clear E.
      apply (Hper Hp); [lia|unfold n in *; lia|].
      replace (k - x - N + N) with (k - x) by lia. apply IH; [lia|auto|auto].
  Qed.

  (** C26, C27, one direction: A, B active on element k; the row of A is a = A - z N, the column that of
      B - z N; it is in the row's range and in the column range of every rank owning the row. *)
  Lemma coupling : forall k A B, is_element p m U k -> active p A k -> active p B k ->
    exists b', (b' - B) mod N = 0 /\ - N <= b' /\
      (forall a0, 0 <= a0 <= A mod N -> fst (st a0) <= b') /\
      (forall a1, A mod N <= a1 < N -> b' <= snd (st a1)) /\ (A < N -> b' = B).
  Proof.
    intros k A B [Hk Hlt] HA HB. destruct dir_facts as (Hp & Hm & Hnd & HN & HNn & HNp).
    unfold active in *. fold n in Hk.
    pose proof (Z.div_mod A N ltac:(lia)) as HDM. pose proof (Z.mod_pos_bound A N ltac:(lia)) as HMB.
    assert (HZ : 0 <= A / N) by (apply Z.div_pos; lia).
    set (z := A / N) in *. set (x := N * z) in *. set (r := A mod N) in *.
    assert (Hx : 0 <= x) by (apply Z.mul_nonneg_nonneg; lia).
    assert (Hx0 : A < N -> x = 0).
    { intros HAN. assert (z = 0) by (unfold z; apply Z.div_small; lia). unfold x. subst z. lia. }
    set (kk := k - x).
    assert (Hkk : r <= kk <= r + p) by (unfold kk; lia).
    assert (Hmod : (B - x - B) mod N = 0).
    { replace (B - x - B) with ((- z) * N) by (unfold x; lia). apply Z.mod_mul. lia. }
    (* the row's interval *)
    assert (Hint : kk = 0 \/ (1 <= kk /\ klt (U kk) (U (kk + 1)))).
    { destruct (Z.eq_dec z 0) as [Ez|Ez].
      - assert (x = 0) by (unfold x; rewrite Ez; lia). right. unfold kk. replace (k - x) with k by lia. split; [lia|auto].
      - assert (Pt : ax_periodic a = true).
        { destruct (ax_periodic a); auto. exfalso. specialize (HNn eq_refl).
          assert (z = 0) by (unfold z; apply Z.div_small; lia). contradiction. }
        destruct (Z.eq_dec kk 0) as [E|E]; [left; auto|right]. split; [lia|].
        pose proof (pattern_back Pt (Z.to_nat z) k) as K.
        replace (k - Z.of_nat (Z.to_nat z) * N) with kk in K by (unfold kk, x; rewrite Z2Nat.id by lia; lia).
        apply K; [lia|lia|auto]. }
    assert (Hkn : kk <= n) by lia.
    assert (HPn : ax_periodic a = true -> 1 <= z -> klt (U (kk + N)) (U (kk + N + 1))).
    { intros Pt Hz. pose proof (pattern_back Pt (Z.to_nat (z-1)) k) as Q.
      replace (k - Z.of_nat (Z.to_nat (z-1)) * N) with (kk + N) in Q by (unfold kk, x; rewrite Z2Nat.id by lia; lia).
      apply Q; [lia|lia|auto]. }
    assert (F : forall a0, 0 <= a0 <= r -> fst (st a0) <= B - x).
    { intros a0 Ha0. unfold st, stencil. fold n. destruct (ax_periodic a) eqn:Pt.
      - cbn [negb]. specialize (HNp eq_refl). destruct HNp as [HNe HNp]. destruct (a0 =? 0) eqn:E0.
        + rewrite <- HNe. cbn [fst].
          assert (K : next_knot_up m U N <= kk + N + 1).
          { destruct (Z.eq_dec z 0) as [Ez|Ez].
            - assert (x = 0) by (unfold x; rewrite Ez; lia).
              assert (next_knot_up m U N <= n + 1); [|lia]. destruct Hends as [_ He].
              fold p m U in He. apply up_le; auto; [lia|unfold n in *; lia|].
              unfold n. replace (m - p - 1 + 1) with (m - p) by lia. exact He.
            - assert (HxN : N <= x) by (unfold x; replace N with (N * 1) at 1 by lia; apply Z.mul_le_mono_nonneg_l; lia).
              apply up_le; auto; [lia|unfold n in *; lia|].
              apply HPn; [auto|lia]. }
          lia.
        + cbn [fst]. destruct Hint as [Hk0|[Hk1 Hlk]]; [lia|].
          assert (next_knot_up m U a0 <= kk + 1) by (apply up_le; auto; [lia|unfold n in *; lia]). lia.
      - cbn [negb fst]. assert (x = 0). { assert (z = 0) by (unfold z; apply Z.div_small; specialize (HNn eq_refl); lia). unfold x. subst z. lia. }
        destruct (a0 <=? p) eqn:E0; [lia|]. destruct Hint as [Hk0|[Hk1 Hlk]]; [lia|].
        assert (next_knot_up m U a0 <= kk + 1) by (apply up_le; auto; [lia|unfold n in *; lia]). lia. }
    assert (L : forall a1, r <= a1 < N -> B - x <= snd (st a1)).
    { intros a1 Ha1.
      assert (HD : kk <= next_knot_down m U (a1 + p + 1)).
      { destruct Hint as [Hk0|[Hk1 Hlk]].
        - rewrite Hk0. apply (next_knot_down_spec m U (a1 + p + 1)). unfold n in *; lia.
        - apply down_ge; auto; [lia|unfold n in *; lia]. }
      unfold st, stencil. fold n. destruct (ax_periodic a).
      - cbn [negb]. destruct (a1 =? 0); cbn [snd]; lia.
      - cbn [negb snd]. destruct (n - p <=? a1); lia. }
    (* move up by whole periods if below -N *)
    destruct (Z.le_gt_cases (- N) (B - x)) as [Hlow|Hlow].
    - exists (B - x). split; [exact Hmod|]. split; [exact Hlow|]. split; [exact F|]. split; [exact L|].
      intros HAN. specialize (Hx0 HAN). clear - Hx0. lia.
    - assert (SB : forall a1, r <= a1 < N -> 0 <= snd (st a1)).
      { intros a1 Ha1. assert (Hb1 : 0 <= a1 <= n) by lia. apply (stencil_bounds a1 Hb1). }
      pose proof (Z.mod_pos_bound (B - x) N ltac:(lia)) as Hb.
      pose proof (Z.div_mod (B - x) N ltac:(lia)) as HD.
      exists ((B - x) mod N - N). set (w := (B - x) mod N) in *. set (q := (B - x) / N) in *.
      split; [|split; [clear - Hb; lia|split; [|split]]].
      + replace (w - N - B) with ((- z - q - 1) * N); [apply Z.mod_mul; clear - HN; lia|].
        clear - HD. subst x. lia.
      + intros a0 Ha0. specialize (F a0 Ha0). clear - F Hb Hlow. lia.
      + intros a1 Ha1. specialize (SB a1 Ha1). clear - SB Hb. lia.
      + intros HAN. exfalso. specialize (Hx0 HAN). clear - Hx0 Hlow HN HA HB Hk Hp. lia.
  Qed.

  (** every row index is in its own range *)
  Lemma active_somewhere : forall A, 0 <= A <= n -> exists k, is_element p m U k /\ active p A k.
  Proof.
    intros A HA. destruct (wf_ends a l Hwf Hends) as (Hn & E0 & E1). fold p m in E0, E1. fold n in E1.
    assert (K : forall j : nat, Z.of_nat j < ax_nel a -> A <= span_at a (Z.of_nat j) ->
      exists k, is_element p m U k /\ active p A k).
    { induction j as [|j IH]; intros Hj HAj.
      - exists (span_at a 0). split; [apply (span_at_elem a l Hwf); lia|]. unfold active. rewrite E0. change (Z.of_nat 0) with 0 in HAj. lia.
      - replace (Z.of_nat (S j)) with (Z.of_nat j + 1) in * by lia.
        destruct (Z.le_gt_cases A (span_at a (Z.of_nat j))) as [Hc|Hc]; [apply IH; [lia|auto]|].
        exists (span_at a (Z.of_nat j + 1)). split; [apply (span_at_elem a l Hwf); lia|].
        pose proof (span_at_step a l Hwf (Z.of_nat j) ltac:(lia) ltac:(lia)) as HS. fold p in HS. unfold active. lia. }
    apply (K (Z.to_nat (ax_nel a - 1))); [lia|]. rewrite Z2Nat.id by lia. lia.
  Qed.
End Dir.
