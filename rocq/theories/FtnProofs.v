(** Proofs about the Fortran module. *)
From Coq Require Import ZArith List Bool Lia Reals Lra.
From Verif Require Import Prelude GridSpec GridProofs FtnModel FtnSpec.
Import ListNotations.
Open Scope Z_scope.

(** ** Column-major and row-major *)
Lemma combine_app : forall A B (a : list A) (b : list B) a' b', length a = length b ->
  combine (a ++ a') (b ++ b') = combine a b ++ combine a' b'.
Proof. induction a as [|x a IH]; intros [|y b] a' b' H; cbn in *; try discriminate; auto. rewrite IH by lia. reflexivity. Qed.

Lemma row_snoc : forall ds is d i, length ds = length is -> row (ds ++ [d]) (is ++ [i]) = row ds is * d + i.
Proof. intros. unfold row. rewrite combine_app by auto. rewrite fold_left_app. reflexivity. Qed.

Lemma col_row : forall shape idx, length shape = length idx -> col shape idx = row (rev shape) (c_order idx).
Proof.
  unfold c_order. induction shape as [|d s IH]; intros [|i t] H; cbn [length] in H; try discriminate; [reflexivity|].
  cbn [col map rev]. rewrite row_snoc by (rewrite !rev_length, map_length; lia). rewrite <- IH by lia. ring.
Qed.

Lemma valid_length : forall shape idx, valid shape idx -> length shape = length idx.
Proof. intros shape idx H. induction H as [|d i s t _ _ IH]; cbn; auto. Qed.

Lemma col_app : forall s t i, length s = length i -> forall j, col (s ++ t) (i ++ j) = col s i + fold_right Z.mul 1 s * col t j.
Proof.
  induction s as [|d s IH]; intros t [|x i] H j; cbn [length] in H; try discriminate.
  - cbn [app col fold_right]. lia.
  - cbn [app col fold_right]. rewrite IH by lia. ring.
Qed.

Lemma prod_repeat : forall d k, fold_right Z.mul 1 (repeat d k) = d ^ Z.of_nat k.
Proof.
  induction k as [|k IH]; [reflexivity|]. cbn [repeat fold_right]. rewrite IH.
  rewrite Nat2Z.inj_succ, Z.pow_succ_r by lia. reflexivity.
Qed.

Lemma col_range : forall s i, valid s i -> 0 <= col s i < fold_right Z.mul 1 s.
Proof.
  intros s i H. induction H as [|d i s t Hd H IH]; [cbn; lia|]. cbn [col fold_right].
  remember (col s t) as x. remember (fold_right Z.mul 1 s) as y. clear - Hd IH.
  assert (d * x <= d * (y - 1)) by (apply Z.mul_le_mono_nonneg_l; lia). nia.
Qed.

(** ** Sums *)
Lemma fold_sum : forall (f : Z -> R) l s, fold_left (fun s a => s + f a)%R l s = (s + rsum f l)%R.
Proof.
  intros f l. unfold rsum. induction l as [|a l IH]; intros s; cbn [fold_left map fold_right]; [ring|]. rewrite IH. ring.
Qed.

Lemma fold_fun : forall (I : Type) (f : Z -> I -> R) l (V : I -> R) i,
  fold_left (fun V a i => V i + f a i)%R l V i = (V i + rsum (fun a => f a i) l)%R.
Proof.
  intros I f l. unfold rsum. induction l as [|a l IH]; intros V i; cbn [fold_left map fold_right]; [ring|]. rewrite IH. ring.
Qed.

(** One update of every component. *)
Lemma fold_comp : forall (I : Type) (g : I -> Z -> R) n (V : I -> Z -> R) i c, 0 <= n ->
  fold_left (fun V c i c' => if c' =? c then (V i c + g i c)%R else V i c') (zseq 1 n) V i c =
  if (1 <=? c) && (c <=? n) then (V i c + g i c)%R else V i c.
Proof.
  intros I g n V i c Hn. revert n Hn. apply (natlike_ind (fun n =>
    fold_left (fun V c i c' => if c' =? c then (V i c + g i c)%R else V i c') (zseq 1 n) V i c =
    if (1 <=? c) && (c <=? n) then (V i c + g i c)%R else V i c)).
  - rewrite zseq_nil by lia. cbn [fold_left]. replace ((1 <=? c) && (c <=? 0)) with false by lia. reflexivity.
  - intros n Hn IH. unfold Z.succ. rewrite zseq_snoc by auto. rewrite fold_left_app. cbn [fold_left].
    destruct (Z.eqb_spec c (1 + n)) as [->|Hc].
    + rewrite IH. replace ((1 <=? 1 + n) && (1 + n <=? n)) with false by lia.
      replace ((1 <=? 1 + n) && (1 + n <=? n + 1)) with true by lia. reflexivity.
    + rewrite IH. replace ((1 <=? c) && (c <=? n)) with ((1 <=? c) && (c <=? n + 1)) by lia. reflexivity.
Qed.

Lemma Der_S_sum : forall N U idx,
  Shape_Der_S N U idx = rsum (fun a => at_ N (idx ++ [a]) * at_ U [a])%R (zseq 1 (size_ U 1)).
Proof. intros. unfold Shape_Der_S. rewrite (fold_fun (list Z) (fun a idx => at_ N (idx ++ [a]) * at_ U [a])%R). ring. Qed.

Lemma Der_V_sum : forall N U idx c, 1 <= c <= size_ U 1 ->
  Shape_Der_V N U idx c = rsum (fun a => at_ N (idx ++ [a]) * at_ U [c; a])%R (zseq 1 (size_ U 2)).
Proof.
  intros N U idx c Hc. unfold Shape_Der_V.
  assert (A : forall l (V : list Z -> Z -> R),
    fold_left (fun V a => fold_left (fun V c idx c' =>
      if c' =? c then (V idx c + at_ N (idx ++ [a]) * at_ U [c; a])%R else V idx c') (zseq 1 (size_ U 1)) V) l V idx c =
    (V idx c + rsum (fun a => at_ N (idx ++ [a]) * at_ U [c; a])%R l)%R).
  { induction l as [|a l IH]; intros V; cbn [fold_left]; [unfold rsum; cbn; ring|]. rewrite IH.
    rewrite (fold_comp (list Z) (fun idx c => at_ N (idx ++ [a]) * at_ U [c; a])%R) by lia.
    replace ((1 <=? c) && (c <=? size_ U 1)) with true by lia. rewrite rsum_cons. ring. }
  rewrite A. ring.
Qed.

Lemma Div_sum : forall N U,
  Shape_Div N U = rsum (fun a => rsum (fun i => at_ N [i; a] * at_ U [i; a])%R (zseq 1 (size_ N 1))) (zseq 1 (size_ U 2)).
Proof.
  intros. unfold Shape_Div.
  assert (A : forall l s, fold_left (fun V a => fold_left (fun V i => V + at_ N [i; a] * at_ U [i; a])%R (zseq 1 (size_ N 1)) V) l s =
    (s + rsum (fun a => rsum (fun i => at_ N [i; a] * at_ U [i; a])%R (zseq 1 (size_ N 1))) l)%R).
  { induction l as [|a l IH]; intros s; cbn [fold_left]; [unfold rsum; cbn; ring|]. rewrite IH, rsum_cons.
    rewrite (fold_sum (fun i => at_ N [i; a] * at_ U [i; a])%R). ring. }
  rewrite A. ring.
Qed.

Lemma Del2_S_sum : forall N U,
  Shape_Del2_S N U = rsum (fun a => rsum (fun i => at_ N [i; i; a] * at_ U [a])%R (zseq 1 (size_ N 1))) (zseq 1 (size_ U 1)).
Proof.
  intros. unfold Shape_Del2_S.
  assert (A : forall l s, fold_left (fun V a => fold_left (fun V i => V + at_ N [i; i; a] * at_ U [a])%R (zseq 1 (size_ N 1)) V) l s =
    (s + rsum (fun a => rsum (fun i => at_ N [i; i; a] * at_ U [a])%R (zseq 1 (size_ N 1))) l)%R).
  { induction l as [|a l IH]; intros s; cbn [fold_left]; [unfold rsum; cbn; ring|]. rewrite IH, rsum_cons.
    rewrite (fold_sum (fun i => at_ N [i; i; a] * at_ U [a])%R). ring. }
  rewrite A. ring.
Qed.

Lemma Del2_V_sum : forall N U c, 1 <= c <= size_ U 1 ->
  Shape_Del2_V N U c = rsum (fun a => rsum (fun i => at_ N [i; i; a] * at_ U [c; a])%R (zseq 1 (size_ N 1))) (zseq 1 (size_ U 2)).
Proof.
  intros N U c Hc. unfold Shape_Del2_V.
  assert (A1 : forall a c1 l (V : Z -> R), fold_left (fun V i c' => if c' =? c1 then (V c1 + at_ N [i; i; a] * at_ U [c1; a])%R else V c') l V c =
    if c =? c1 then (V c + rsum (fun i => at_ N [i; i; a] * at_ U [c; a])%R l)%R else V c).
  { intros a c1. induction l as [|i l IH]; intros V; cbn [fold_left].
    - unfold rsum. cbn. destruct (c =? c1); ring.
    - rewrite IH. destruct (Z.eqb_spec c c1) as [->|_]; [rewrite rsum_cons; ring|reflexivity]. }
  assert (A2 : forall a n (V : Z -> R), 0 <= n -> fold_left (fun V c => fold_left (fun V i c' =>
      if c' =? c then (V c + at_ N [i; i; a] * at_ U [c; a])%R else V c') (zseq 1 (size_ N 1)) V) (zseq 1 n) V c =
    if (1 <=? c) && (c <=? n) then (V c + rsum (fun i => at_ N [i; i; a] * at_ U [c; a])%R (zseq 1 (size_ N 1)))%R else V c).
  { intros a n V Hn. revert n Hn. apply (natlike_ind (fun n => fold_left (fun V c => fold_left (fun V i c' =>
      if c' =? c then (V c + at_ N [i; i; a] * at_ U [c; a])%R else V c') (zseq 1 (size_ N 1)) V) (zseq 1 n) V c =
    if (1 <=? c) && (c <=? n) then (V c + rsum (fun i => at_ N [i; i; a] * at_ U [c; a])%R (zseq 1 (size_ N 1)))%R else V c)).
    - rewrite (zseq_nil 1 0) by lia. cbn [fold_left]. replace ((1 <=? c) && (c <=? 0)) with false by lia. reflexivity.
    - intros n Hn IH. unfold Z.succ. rewrite (zseq_snoc 1 n) by auto. rewrite fold_left_app. cbn [fold_left]. rewrite A1, IH.
      destruct (Z.eqb_spec c (1 + n)) as [->|Hne].
      + replace ((1 <=? 1 + n) && (1 + n <=? n)) with false by lia.
        replace ((1 <=? 1 + n) && (1 + n <=? n + 1)) with true by lia. reflexivity.
      + replace ((1 <=? c) && (c <=? n)) with ((1 <=? c) && (c <=? n + 1)) by lia. reflexivity. }
  assert (A : forall l (V : Z -> R), fold_left (fun V a => fold_left (fun V c => fold_left (fun V i c' =>
      if c' =? c then (V c + at_ N [i; i; a] * at_ U [c; a])%R else V c') (zseq 1 (size_ N 1)) V) (zseq 1 (size_ U 1)) V) l V c =
    (V c + rsum (fun a => rsum (fun i => at_ N [i; i; a] * at_ U [c; a])%R (zseq 1 (size_ N 1))) l)%R).
  { induction l as [|a l IH]; intros V; cbn [fold_left]; [unfold rsum; cbn; ring|]. rewrite IH, A2, rsum_cons by lia.
    replace ((1 <=? c) && (c <=? size_ U 1)) with true by lia. ring. }
  rewrite A. ring.
Qed.

Lemma rsum_shift : forall (f : Z -> R) n, rsum f (zseq 1 n) = rsum (fun a => f (a + 1)) (zseq 0 n).
Proof. intros. rewrite <- (rsum_map _ _ f (fun a => a + 1)). rewrite zseq_shift. reflexivity. Qed.

(** ** Memory of the arrays *)
Lemma at_shape : forall k p idx a, valid (repeat (p_dim p) k) idx ->
  at_ (IGA_Shape k p) (idx ++ [a]) = p_shape p k ((a - 1) * p_dim p ^ Z.of_nat k + col (repeat (p_dim p) k) idx).
Proof.
  intros k p idx a H. unfold at_, IGA_Shape. cbn [fa_mem fa_shape]. f_equal.
  rewrite col_app by (apply valid_length; exact H). rewrite prod_repeat. cbn [col]. ring.
Qed.
