(** Lemmas for the probe: B-spline tables of any order, location of a point, gathered coefficients. *)
From Coq Require Import ZArith List Bool Lia Reals Lra Psatz.
From Coq Require Import ZifyBool ZifyNat.
From Coquelicot Require Import Coquelicot.
From Verif Require Import Prelude RealOrd AxisModel AxisSpec AxisInitModel AxisInitProofs ElemModel Box GridSpec GridProofs
  RuleModel RuleSpec RuleProofs RuleProofs2 RuleProps BasModel BasSpec BasProofs BasProofs2 BasProofs3.
Import ListNotations.
Open Scope R_scope.

Section AnyOrder.
  Variables (U : Z -> R) (i p : Z).
  Hypothesis Hs : forall a b, (i - p + 1 <= a)%Z -> (a <= b)%Z -> (b <= i + p)%Z -> U a <= U b.
  Hypothesis Hi : U i < U (i+1)%Z.
  Hypothesis Hp : (0 <= p)%Z.
  Variables (uu : R) (ndu0 a0 ders0 : Z -> Z -> R) (l0 r0 : Z -> R).

  (** Orders above the degree: no entry of the work arrays is read and the row is zero. *)
  Lemma der_k_high ndu r k a s1 s2 D : (0 <= r <= p)%Z -> (p < k)%Z ->
    der_k p ndu r (a, s1, s2, D) k = (a, s2, s1, upd2 D r k 0).
  Proof.
    intros Hr Hk. unfold der_k. replace (k <=? r)%Z with false by lia. replace (-1 <? r - k)%Z with false by lia.
    replace (r <=? p - k)%Z with false by lia. rewrite zseq_nil by (destruct (r - 1 <=? p - k)%Z eqn:E; lia). reflexivity.
  Qed.

  Lemma fold_high ndu r a s1 s2 D n : (0 <= r <= p)%Z -> (0 <= n)%Z ->
    exists s1' s2' D', fold_left (der_k p ndu r) (zseq (p+1) n) (a, s1, s2, D) = (a, s1', s2', D') /\
      forall x k, D' x k = if (x =? r)%Z && (p <? k)%Z && (k <=? p + n)%Z then 0 else D x k.
  Proof.
    intros Hr Hn.
    pose (Inv := fun (k : Z) (st : (Z -> Z -> R) * Z * Z * (Z -> Z -> R)) => let '(a', s1, s2, D') := st in
      a' = a /\ forall x k', D' x k' = if (x =? r)%Z && (p <? k')%Z && (k' <? k)%Z then 0 else D x k').
    assert (M : Inv (p + 1 + n)%Z (fold_left (der_k p ndu r) (zseq (p+1) n) (a, s1, s2, D))).
    { apply (fold_zseq_ind _ _ Inv); [lia| |].
      - split; auto. intros x k'. replace ((x =? r)%Z && (p <? k')%Z && (k' <? p + 1)%Z) with false by lia. auto.
      - intros k [[[a1 t1] t2] D1] Hk (I1 & I2). rewrite der_k_high by lia. split; auto. intros x k'. unfold upd2.
        destruct ((x =? r)%Z && (k' =? k)%Z) eqn:E.
        + replace ((x =? r)%Z && (p <? k')%Z && (k' <? k + 1)%Z) with true by lia. auto.
        + rewrite I2. replace ((x =? r)%Z && (p <? k')%Z && (k' <? k + 1)%Z) with ((x =? r)%Z && (p <? k')%Z && (k' <? k)%Z) by lia. auto. }
    destruct (fold_left (der_k p ndu r) (zseq (p+1) n) (a, s1, s2, D)) as [[[a1 t1] t2] D1]. destruct M as (-> & M).
    exists t1, t2, D1. split; auto. intros x k. rewrite M. replace (k <? p + 1 + n)%Z with (k <=? p + n)%Z by lia. auto.
  Qed.

  (** Rows 0..n of a table computed with n above the degree. *)
  Lemma ders_value_any n r k : (0 <= n)%Z -> (0 <= r <= p)%Z -> (0 <= k <= n)%Z ->
    bspline_ders i uu p n U ndu0 a0 ders0 l0 r0 r k =
    if (k <=? p)%Z then fallR p (Z.to_nat k) * dsum U i p (i-p+r) (Z.to_nat k) uu else 0.
  Proof.
    intros Hn Hr Hk. destruct (Z_le_dec n p) as [L|G].
    { replace (k <=? p)%Z with true by lia. apply ders_value; auto; lia. }
    unfold bspline_ders. set (ndu := ndu_table i uu p U ndu0 l0 r0).
    assert (HF : filled U i uu p ndu) by (apply table_ok; auto).
    set (D0 := fun a b => if (b =? 0)%Z && (0 <=? a)%Z && (a <=? p)%Z then ndu a p else ders0 a b).
    pose (Inv := fun (x : Z) (st : (Z -> Z -> R) * (Z -> Z -> R)) =>
      forall y k', snd st y k' = if (0 <=? y)%Z && (y <? x)%Z && (1 <=? k')%Z && (k' <=? n)%Z
                                 then (if (k' <=? p)%Z then rsum (term U i p uu y k') (zseq 0 (k'+1)) else 0) else D0 y k').
    assert (M : Inv (0 + (p+1))%Z (fold_left (der_r p n ndu) (zseq 0 (p+1)) (a0, D0))).
    { apply (fold_zseq_ind _ _ Inv); [lia| |].
      - intros y k'. replace ((0 <=? y)%Z && (y <? 0)%Z && (1 <=? k')%Z && (k' <=? n)%Z) with false by lia. reflexivity.
      - intros x [a D] Hx I y k'. cbn [snd] in I.
        destruct (ders_row U i p Hs Hi Hp uu ndu HF x ltac:(lia) p a D ltac:(lia)) as (a' & D' & E1 & E2).
        unfold der_r in E1 |- *. replace n with (p + (n - p))%Z by lia. rewrite zseq_app, fold_left_app by lia.
        destruct (fold_left (der_k p ndu x) (zseq 1 p) (upd2 a 0 0 1, 0%Z, 1%Z, D)) as [[[a1 t1] t2] D1]. injection E1 as <- <-.
        replace (1 + p)%Z with (p + 1)%Z by lia.
        destruct (fold_high ndu x a1 t1 t2 D1 (n-p) ltac:(lia) ltac:(lia)) as (s1' & s2' & D2 & -> & E3). cbn [snd].
        rewrite E3, E2, I. replace (p + (n - p))%Z with n by lia.
        destruct (y =? x)%Z eqn:E4.
        + assert (y = x) by lia. subst y. cbn [andb]. destruct ((p <? k')%Z && (k' <=? n)%Z) eqn:E5.
          * replace ((0 <=? x)%Z && (x <? x + 1)%Z && (1 <=? k')%Z && (k' <=? n)%Z) with true by lia. replace (k' <=? p)%Z with false by lia. auto.
          * replace ((0 <=? x)%Z && (x <? x)%Z && (1 <=? k')%Z && (k' <=? n)%Z) with false by lia.
            destruct ((1 <=? k')%Z && (k' <=? p)%Z) eqn:E6.
            -- replace ((0 <=? x)%Z && (x <? x + 1)%Z && (1 <=? k')%Z && (k' <=? n)%Z) with true by lia. replace (k' <=? p)%Z with true by lia. auto.
            -- replace ((0 <=? x)%Z && (x <? x + 1)%Z && (1 <=? k')%Z && (k' <=? n)%Z) with false by lia. auto.
        + cbn [andb]. replace ((0 <=? y)%Z && (y <? x + 1)%Z && (1 <=? k')%Z && (k' <=? n)%Z) with ((0 <=? y)%Z && (y <? x)%Z && (1 <=? k')%Z && (k' <=? n)%Z) by lia. auto. }
    destruct (fold_left (der_r p n ndu) (zseq 0 (p+1)) (a0, D0)) as [a D]. unfold Inv in M. cbn [snd] in M. clear Inv.
    pose (Inv := fun (x : Z) (st : Z * (Z -> Z -> R)) => IZR (fst st) = (if (x <=? p)%Z then fallR p (Z.to_nat x) else 0) /\
      forall y k', (0 <= y <= p)%Z -> snd st y k' = if (1 <=? k')%Z && (k' <? x)%Z then D y k' * (if (k' <=? p)%Z then fallR p (Z.to_nat k') else 0) else D y k').
    assert (K : Inv (1 + n)%Z (fold_left (der_scale p) (zseq 1 n) (p, D))).
    { apply (fold_zseq_ind _ _ Inv); [lia| |].
      - split.
        + cbn [fst]. destruct (1 <=? p)%Z eqn:E1.
          * change (Z.to_nat 1) with 1%nat. unfold fallR. simpl. rewrite Nat.sub_0_r, INR_IZR_INZ, Z2Nat.id by lia. ring.
          * assert (p = 0)%Z by lia. subst p. reflexivity.
        + intros y k' Hy. replace ((1 <=? k')%Z && (k' <? 1)%Z) with false by lia. reflexivity.
      - intros x [rr D'] Hx [I1 I2]. cbn [fst snd] in *. unfold der_scale. split; cbn [fst snd].
        + rewrite mult_IZR, I1. destruct (x <=? p)%Z eqn:E1.
          * destruct (x + 1 <=? p)%Z eqn:E2.
            -- replace (Z.to_nat (x+1)) with (S (Z.to_nat x)) by lia. rewrite fallR_S. f_equal. rewrite INR_IZR_INZ. f_equal. lia.
            -- replace (p - x)%Z with 0%Z by lia. ring.
          * replace (x + 1 <=? p)%Z with false by lia. ring.
        + intros y k' Hy. rewrite I2 by auto. destruct (k' =? x)%Z eqn:E.
          * assert (k' = x) by lia. subst k'. replace (true && (0 <=? y)%Z && (y <=? p)%Z) with true by lia.
            replace ((1 <=? x)%Z && (x <? x)%Z) with false by lia. replace ((1 <=? x)%Z && (x <? x + 1)%Z) with true by lia. rewrite I1. auto.
          * cbn [andb]. replace ((1 <=? k')%Z && (k' <? x + 1)%Z) with ((1 <=? k')%Z && (k' <? x)%Z) by lia. auto. }
    rewrite (proj2 K) by auto. destruct (Z.eq_dec k 0) as [->|N0].
    - replace ((1 <=? 0)%Z && (0 <? 1 + n)%Z) with false by lia. rewrite M.
      replace ((0 <=? r)%Z && (r <? 0 + (p + 1))%Z && (1 <=? 0)%Z && (0 <=? n)%Z) with false by lia. unfold D0.
      replace ((0 =? 0)%Z && (0 <=? r)%Z && (r <=? p)%Z) with true by lia. rewrite (proj1 HF) by lia.
      replace (0 <=? p)%Z with true by lia. change (Z.to_nat 0) with 0%nat. rewrite (dsum_0 U i p Hs). unfold NN, fallR; simpl. rewrite Rmult_1_l. f_equal.
    - replace ((1 <=? k)%Z && (k <? 1 + n)%Z) with true by lia. rewrite M.
      replace ((0 <=? r)%Z && (r <? 0 + (p + 1))%Z && (1 <=? k)%Z && (k <=? n)%Z) with true by lia.
      destruct (k <=? p)%Z eqn:E; [|ring]. assert (Ek : (0 <= k <= p)%Z) by (clear - Hk E; lia). rewrite (sum_term_dsum U i p Hs uu ndu0 a0 ders0 l0 r0 r k Ek). ring.
  Qed.

  Lemma basis_derive_any d a k : (0 <= d)%Z -> (0 <= a <= p)%Z -> (0 <= k <= d)%Z ->
    is_derive_n (bspline_piece U i (Z.to_nat p) (i-p+a)) (Z.to_nat k) uu (basis_bspline i uu p d U ndu0 a0 ders0 l0 r0 k a).
  Proof.
    intros Hd Ha Hk. unfold basis_bspline. replace ((0 <=? k)%Z && (k <=? d)%Z) with true by lia. rewrite ders_value_any by lia.
    destruct (k <=? p)%Z eqn:E; [apply (piece_derive_n U i p Hs Hi Hp)|apply (piece_derive_n_zero U i p Hs Hi Hp)]; lia.
  Qed.
End AnyOrder.

Lemma bspline_rows_any p m (U : Z -> R) i d ndu0 a0 ders0 l0 r0 :
  nondecreasing (O:=Rord) m U -> (0 <= p)%Z -> (p <= i <= m-p-1)%Z -> U i < U (i+1)%Z ->
  let B := fun u => basis_bspline i u p d U (ndu0 u) (a0 u) (ders0 u) (l0 u) (r0 u) in
  (forall a u, (0 <= d)%Z -> (0 <= a <= p)%Z -> B u 0%Z a = bspline_piece U i (Z.to_nat p) (i-p+a) u) /\
  (forall k a u, (0 <= k < d)%Z -> (0 <= a <= p)%Z -> is_derive (fun v => B v k a) u (B u (k+1)%Z a)).
Proof.
  intros HN Hp Hi HU B.
  assert (Hs : forall a b, (i - p + 1 <= a)%Z -> (a <= b)%Z -> (b <= i + p)%Z -> U a <= U b) by (intros; apply kle_R; apply HN; lia).
  assert (D : forall k a v, (0 <= a <= p)%Z -> (0 <= k <= d)%Z -> is_derive_n (bspline_piece U i (Z.to_nat p) (i-p+a)) (Z.to_nat k) v (B v k a)).
  { intros k a v Ha Hk. apply basis_derive_any; auto; lia. }
  split.
  - intros a u Hd Ha. symmetry. exact (D 0%Z a u Ha ltac:(lia)).
  - intros k a u Hk Ha. pose proof (D (k+1)%Z a u Ha ltac:(lia)) as E. replace (Z.to_nat (k+1)) with (Datatypes.S (Z.to_nat k)) in E by lia. cbn [is_derive_n] in E.
    eapply is_derive_ext; [|exact E]. intros v. apply is_derive_n_unique. apply D; lia.
Qed.
