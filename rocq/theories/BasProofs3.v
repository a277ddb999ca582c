(** The values returned by IGA_Basis_BSpline. *)
From Coq Require Import ZArith List Bool Lia Reals Lra Psatz.
From Coq Require Import ZifyBool ZifyNat.
From Coquelicot Require Import Coquelicot.
From Verif Require Import Prelude RealOrd AxisInitModel AxisInitProofs ElemModel Box GridSpec GridProofs BasModel BasSpec BasProofs BasProofs2.
Import ListNotations.
Open Scope R_scope.

(** The derivatives of a constant sum. *)
Lemma chain_const (F : nat -> R -> R) c K : (forall v, F 0%nat v = c) ->
  (forall k v, (k < K)%nat -> is_derive (F k) v (F (S k) v)) -> forall k, (S k <= K)%nat -> forall v, F (S k) v = 0.
Proof.
  intros H0 HD. induction k as [|k IH]; intros Hk v.
  - rewrite <- (is_derive_unique _ _ _ (HD 0%nat v ltac:(lia))). rewrite (Derive_ext (F 0%nat) (fun _ => c)) by auto. apply Derive_const.
  - rewrite <- (is_derive_unique _ _ _ (HD (S k) v ltac:(lia))). rewrite (Derive_ext (F (S k)) (fun _ => 0)) by (intros; apply IH; lia). apply Derive_const.
Qed.

Section Values.
  Variables (U : Z -> R) (i p : Z).
  Hypothesis Hs : forall a b, (i - p + 1 <= a)%Z -> (a <= b)%Z -> (b <= i + p)%Z -> U a <= U b.
  Hypothesis Hi : U i < U (i+1)%Z.
  Hypothesis Hp : (0 <= p)%Z.
  Variables (uu : R) (ndu0 a0 ders0 : Z -> Z -> R) (l0 r0 : Z -> R).

  Lemma sum_term_dsum r k : (0 <= k <= p)%Z ->
    rsum (term U i p uu r k) (zseq 0 (k+1)) = dsum U i p (i-p+r) (Z.to_nat k) uu.
  Proof.
    intros Hk. unfold dsum. replace (Z.of_nat (Z.to_nat k) + 1)%Z with (k+1)%Z by lia. apply rsum_ext. intros j _.
    unfold term, NN. f_equal. f_equal. lia.
  Qed.

  Lemma ders_value n r k : (0 <= n <= p)%Z -> (0 <= r <= p)%Z -> (0 <= k <= n)%Z ->
    bspline_ders i uu p n U ndu0 a0 ders0 l0 r0 r k = fallR p (Z.to_nat k) * dsum U i p (i-p+r) (Z.to_nat k) uu.
  Proof.
    intros Hn Hr Hk. unfold bspline_ders. set (ndu := ndu_table i uu p U ndu0 l0 r0).
    assert (HF : filled U i uu p ndu) by (apply table_ok; auto).
    set (D0 := fun a b => if (b =? 0)%Z && (0 <=? a)%Z && (a <=? p)%Z then ndu a p else ders0 a b).
    pose (Inv := fun (x : Z) (st : (Z -> Z -> R) * (Z -> Z -> R)) =>
      forall y k', snd st y k' = if (0 <=? y)%Z && (y <? x)%Z && (1 <=? k')%Z && (k' <=? n)%Z then rsum (term U i p uu y k') (zseq 0 (k'+1)) else D0 y k').
    assert (M : Inv (0 + (p+1))%Z (fold_left (der_r p n ndu) (zseq 0 (p+1)) (a0, D0))).
    { apply (fold_zseq_ind _ _ Inv); [lia| |].
      - intros y k'. replace ((0 <=? y)%Z && (y <? 0)%Z && (1 <=? k')%Z && (k' <=? n)%Z) with false by lia. reflexivity.
      - intros x [a D] Hx I y k'. destruct (ders_row U i p Hs Hi Hp uu ndu HF x ltac:(lia) n a D Hn) as (a' & D' & -> & E). cbn [snd] in *.
        rewrite E, I. destruct (y =? x)%Z eqn:E1.
        + assert (y = x) by lia. subst y.
          destruct ((1 <=? k')%Z && (k' <=? n)%Z) eqn:E2.
          * replace (true && (1 <=? k')%Z && (k' <=? n)%Z) with true by lia. replace ((0 <=? x)%Z && (x <? x + 1)%Z && (1 <=? k')%Z && (k' <=? n)%Z) with true by lia. auto.
          * replace (true && (1 <=? k')%Z && (k' <=? n)%Z) with false by lia. replace ((0 <=? x)%Z && (x <? x + 1)%Z && (1 <=? k')%Z && (k' <=? n)%Z) with false by lia.
            replace ((0 <=? x)%Z && (x <? x)%Z && (1 <=? k')%Z && (k' <=? n)%Z) with false by lia. auto.
        + cbn [andb]. replace ((0 <=? y)%Z && (y <? x + 1)%Z && (1 <=? k')%Z && (k' <=? n)%Z) with ((0 <=? y)%Z && (y <? x)%Z && (1 <=? k')%Z && (k' <=? n)%Z) by lia. auto. }
    destruct (fold_left (der_r p n ndu) (zseq 0 (p+1)) (a0, D0)) as [a D]. unfold Inv in M. cbn [snd] in M. clear Inv.
    pose (Inv := fun (x : Z) (st : Z * (Z -> Z -> R)) => IZR (fst st) = fallR p (Z.to_nat x) /\
      forall y k', (0 <= y <= p)%Z -> snd st y k' = if (1 <=? k')%Z && (k' <? x)%Z then D y k' * fallR p (Z.to_nat k') else D y k').
    assert (K : Inv (1 + n)%Z (fold_left (der_scale p) (zseq 1 n) (p, D)) \/ n = 0%Z).
    { destruct (Z.eq_dec n 0) as [->|N0]; [auto|left]. apply (fold_zseq_ind _ _ Inv); [lia| |].
      - split.
        + cbn [fst]. change (Z.to_nat 1) with 1%nat. unfold fallR. simpl. rewrite Nat.sub_0_r, INR_IZR_INZ, Z2Nat.id by lia. ring.
        + intros y k' Hy. replace ((1 <=? k')%Z && (k' <? 1)%Z) with false by lia. reflexivity.
      - intros x [rr D'] Hx [I1 I2]. cbn [fst snd] in *. unfold der_scale. split; cbn [fst snd].
        + rewrite mult_IZR, I1. replace (Z.to_nat (x+1)) with (S (Z.to_nat x)) by lia. rewrite fallR_S. f_equal.
          rewrite INR_IZR_INZ. f_equal. lia.
        + intros y k' Hy. rewrite I2 by auto. destruct (k' =? x)%Z eqn:E.
          * assert (k' = x) by lia. subst k'. replace (true && (0 <=? y)%Z && (y <=? p)%Z) with true by lia.
            replace ((1 <=? x)%Z && (x <? x)%Z) with false by lia. replace ((1 <=? x)%Z && (x <? x + 1)%Z) with true by lia. rewrite I1. auto.
          * cbn [andb]. replace ((1 <=? k')%Z && (k' <? x + 1)%Z) with ((1 <=? k')%Z && (k' <? x)%Z) by lia. auto. }
    assert (V : D r k = dsum U i p (i-p+r) (Z.to_nat k) uu).
    { rewrite M. destruct (Z.eq_dec k 0) as [->|N0].
      - replace ((0 <=? r)%Z && (r <? 0 + (p + 1))%Z && (1 <=? 0)%Z && (0 <=? n)%Z) with false by lia. unfold D0.
        replace ((0 =? 0)%Z && (0 <=? r)%Z && (r <=? p)%Z) with true by lia. rewrite (proj1 HF) by lia.
        change (Z.to_nat 0) with 0%nat. rewrite (dsum_0 U i p Hs). unfold NN. f_equal.
      - replace ((0 <=? r)%Z && (r <? 0 + (p + 1))%Z && (1 <=? k)%Z && (k <=? n)%Z) with true by lia. apply sum_term_dsum. lia. }
    destruct K as [[_ K]| ->].
    - rewrite K by auto. rewrite <- V. destruct (Z.eq_dec k 0) as [->|N0].
      + replace ((1 <=? 0)%Z && (0 <? 1 + n)%Z) with false by lia. unfold fallR; simpl. ring.
      + replace ((1 <=? k)%Z && (k <? 1 + n)%Z) with true by lia. ring.
    - assert (k = 0%Z) by lia. subst k. rewrite zseq_nil by lia. cbn [fold_left snd]. rewrite V. unfold fallR; simpl. ring.
  Qed.

  Lemma basis_value d a : (0 <= d <= p)%Z -> (0 <= a <= p)%Z ->
    basis_bspline i uu p d U ndu0 a0 ders0 l0 r0 0 a = bspline_piece U i (Z.to_nat p) (i-p+a) uu.
  Proof.
    intros Hd Ha. unfold basis_bspline. replace ((0 <=? 0)%Z && (0 <=? d)%Z) with true by lia. rewrite ders_value by lia.
    change (Z.to_nat 0) with 0%nat. rewrite (dsum_0 U i p Hs). unfold fallR; simpl. ring.
  Qed.

  Lemma basis_derive d a k : d = Z.min p 4 -> (0 <= a <= p)%Z -> (0 <= k <= 4)%Z ->
    is_derive_n (bspline_piece U i (Z.to_nat p) (i-p+a)) (Z.to_nat k) uu (basis_bspline i uu p d U ndu0 a0 ders0 l0 r0 k a).
  Proof.
    intros Hd Ha Hk. unfold basis_bspline. destruct ((0 <=? k)%Z && (k <=? d)%Z) eqn:E.
    - rewrite ders_value by lia. apply (piece_derive_n U i p Hs Hi Hp). lia.
    - apply (piece_derive_n_zero U i p Hs Hi Hp). lia.
  Qed.
End Values.

Section Sums.
  Variables (U : Z -> R) (i p : Z).
  Hypothesis Hs : forall a b, (i - p + 1 <= a)%Z -> (a <= b)%Z -> (b <= i + p)%Z -> U a <= U b.
  Hypothesis Hi : U i < U (i+1)%Z.
  Hypothesis Hp : (0 <= p)%Z.
  Lemma sum_derivs k : (1 <= k <= Z.to_nat p)%nat -> forall u,
    rsum (fun a => fallR p k * dsum U i p (i-p+a) k u) (zseq 0 (p+1)) = 0.
  Proof.
    intros Hk u. destruct k as [|k]; [lia|].
    apply (chain_const (fun k u => rsum (fun a => fallR p k * dsum U i p (i-p+a) k u) (zseq 0 (p+1))) 1 (Z.to_nat p)); [| |lia].
    - intros v. rewrite <- (piece_unity U i p Hs Hi Hp (Z.to_nat p) ltac:(lia) v).
      rewrite Z2Nat.id by lia. change (zseq (i-p) (p+1)) with (zseq (0 + (i-p)) (p+1)). rewrite <- zseq_shift, rsum_map. apply rsum_ext.
      intros a Ha. rewrite (dsum_0 U i p Hs). unfold fallR; simpl. rewrite Rmult_1_l. f_equal. lia.
    - intros j v Hj. apply (is_derive_rsum (fun a v => fallR p j * dsum U i p (i-p+a) j v) (fun a v => fallR p (S j) * dsum U i p (i-p+a) (S j) v)).
      intros a _. rewrite fallR_S, Rmult_assoc. apply (is_derive_scal (dsum U i p (i-p+a) j) v (fallR p j)), dsum_derive; auto.
  Qed.
End Sums.

(** Dependence on the knots. *)
Lemma piece_local U V i q : (forall x, (i - Z.of_nat q + 1 <= x <= i + Z.of_nat q)%Z -> U x = V x) ->
  forall c u, bspline_piece U i q c u = bspline_piece V i q c u.
Proof.
  induction q as [|q IH]; intros H c u; [reflexivity|]. rewrite !piece_S.
  assert (IH' : forall c u, bspline_piece U i q c u = bspline_piece V i q c u) by (apply IH; intros; apply H; lia).
  rewrite !IH'. f_equal.
  - destruct (Z_lt_dec c (i - Z.of_nat q)); [rewrite piece_zero, !Rmult_0_r, !frac_0 by lia; auto|].
    destruct (Z_lt_dec i c); [rewrite piece_zero, !Rmult_0_r, !frac_0 by lia; auto|]. rewrite !H by lia. auto.
  - destruct (Z_lt_dec (c+1) (i - Z.of_nat q)); [rewrite piece_zero, !Rmult_0_r, !frac_0 by lia; auto|].
    destruct (Z_lt_dec i (c+1)); [rewrite piece_zero, !Rmult_0_r, !frac_0 by lia; auto|]. rewrite !H by lia. auto.
Qed.

(** On the half-open span the piece is the B-spline. *)
Lemma span_ind_piece U m i u : (forall a b, (0 <= a)%Z -> (a <= b)%Z -> (b <= m)%Z -> U a <= U b) -> (0 <= i < m)%Z ->
  U i <= u < U (i+1)%Z -> forall c, (0 <= c < m)%Z -> span_ind U u c = piece i c.
Proof.
  intros Hm Hi Hu c Hc. unfold span_ind, piece. destruct (Z.eq_dec c i) as [->|N].
  - destruct (Rle_dec (U i) u); [|lra]. destruct (Rlt_dec u (U (i+1)%Z)); [auto|lra].
  - destruct (Rle_dec (U c) u); auto. destruct (Rlt_dec u (U (c+1)%Z)); auto. exfalso.
    destruct (Z_lt_dec c i).
    + pose proof (Hm (c+1)%Z i ltac:(lia) ltac:(lia) ltac:(lia)). lra.
    + pose proof (Hm (i+1)%Z c ltac:(lia) ltac:(lia) ltac:(lia)). lra.
Qed.
Lemma bsp_ind_ext ind ind' U m : (forall c, (0 <= c < m)%Z -> ind c = ind' c) ->
  forall q c u, (0 <= c)%Z -> (c + Z.of_nat q < m)%Z -> bsp ind U q c u = bsp ind' U q c u.
Proof.
  intros H. induction q as [|q IH]; intros c u Hc Hm; cbn [bsp]; [apply H; lia|]. rewrite !IH by lia. reflexivity.
Qed.
Lemma bspline_is_piece U m i u : (forall a b, (0 <= a)%Z -> (a <= b)%Z -> (b <= m)%Z -> U a <= U b) -> (0 <= i < m)%Z ->
  U i <= u < U (i+1)%Z -> forall q c, (0 <= c)%Z -> (c + Z.of_nat q < m)%Z -> bspline U q c u = bspline_piece U i q c u.
Proof.
  intros Hm Hi Hu q c Hc Hq. unfold bspline, bspline_piece. apply (bsp_ind_ext _ _ U m); auto.
  intros c' Hc'. apply (span_ind_piece U m); auto.
Qed.

(** At the left end of a span whose preceding knots coincide only the first function remains; likewise right. *)
Lemma piece_left U i q : (forall x, (i - Z.of_nat q + 1 <= x <= i)%Z -> U x = U i) ->
  forall c, (i - Z.of_nat q < c)%Z -> bspline_piece U i q c (U i) = 0.
Proof.
  induction q as [|q IH]; intros H c Hc; [apply piece_zero; lia|]. rewrite piece_S.
  rewrite (IH ltac:(intros; apply H; lia) (c+1)%Z) by lia. rewrite Rmult_0_r, frac_0.
  destruct (Z_lt_dec i c); [rewrite piece_zero by lia; rewrite Rmult_0_r, frac_0; ring|].
  rewrite (H c) by lia. replace (U i - U i) with 0 by ring. rewrite Rmult_0_l, frac_0. ring.
Qed.
Lemma piece_right U i q e : e = U (i+1)%Z -> (forall x, (i + 1 <= x <= i + Z.of_nat q)%Z -> U x = e) ->
  forall c, (c < i)%Z -> bspline_piece U i q c e = 0.
Proof.
  intros He. induction q as [|q IH]; intros H c Hc; [apply piece_zero; lia|]. rewrite piece_S.
  rewrite (IH ltac:(intros; apply H; lia) c) by lia. rewrite Rmult_0_r, frac_0.
  destruct (Z_lt_dec (c+1) (i - Z.of_nat q)); [rewrite piece_zero by lia; rewrite Rmult_0_r, frac_0; ring|].
  rewrite (H (c + Z.of_nat (S q) + 1)%Z) by lia. replace (e - e) with 0 by ring. rewrite Rmult_0_l, frac_0. ring.
Qed.
