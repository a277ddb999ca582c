(** Specification notions for C33-C35, C54, C68: functions of several real variables and their derivatives. *)
From Coq Require Import ZArith List Reals.
From Verif Require Import Prelude GridSpec MapModel.
Import ListNotations.
Open Scope R_scope.

(** A point with coordinates 1..n (the other components are irrelevant). *)
Definition pt := Z -> R.

(** y differs from x by less than d in every coordinate. *)
Definition close (n : Z) (d : R) (x y : pt) : Prop := forall i, (1 <= i <= n)%Z -> Rabs (y i - x i) < d.

(** P holds on a neighbourhood of x. *)
Definition around (n : Z) (x : pt) (P : pt -> Prop) : Prop := exists d, 0 < d /\ forall y, close n d x y -> P y.

(** Sum of the absolute values of the coordinates of y - x. *)
Definition dist1 (n : Z) (x y : pt) : R := rsum (fun i => Rabs (y i - x i)) (zseq 1 n).

(** f is (Frechet) differentiable at x and its partial derivatives there are g(1), ..., g(n). *)
Definition diff_at (n : Z) (f : pt -> R) (x : pt) (g : Z -> R) : Prop :=
  forall eps, 0 < eps -> around n x (fun y =>
    Rabs (f y - f x - rsum (fun i => g i * (y i - x i)) (zseq 1 n)) <= eps * dist1 n x y).

(** Continuity at x. *)
Definition cont_at (n : Z) (f : pt -> R) (x : pt) : Prop :=
  forall eps, 0 < eps -> around n x (fun y => Rabs (f y - f x) < eps).

(** Kronecker's delta. *)
Definition kd (i j : Z) : R := if (i =? j)%Z then 1 else 0.

(** The determinant as the sum over the permutations of the columns (Leibniz). *)
Fixpoint inserts (x : Z) (l : list Z) : list (list Z) :=
  match l with
  | [] => [[x]]
  | y :: t => (x :: l) :: map (cons y) (inserts x t)
  end.
Fixpoint perms (l : list Z) : list (list Z) :=
  match l with
  | [] => [[]]
  | x :: t => flat_map (inserts x) (perms t)
  end.
Fixpoint inversions (l : list Z) : nat :=
  match l with
  | [] => 0
  | x :: t => length (filter (fun y => (y <? x)%Z) t) + inversions t
  end.
Fixpoint diag_prod (A : Z -> Z -> R) (i : Z) (s : list Z) : R :=
  match s with
  | [] => 1
  | j :: t => A i j * diag_prod A (i+1)%Z t
  end.
Definition det (n : Z) (A : Z -> Z -> R) : R :=
  rsum (fun s => (if Nat.even (inversions s) then 1 else -1) * diag_prod A 1 s) (perms (zseq 1 n)).

(** The arrays N(y) hold, at x, the derivatives up to the given order (at most 4) of the functions n0(N y)(a),
    a = 1..nen: n1(i,a) is the derivative in direction i, n2(j,i,a) that of n1(i,a) in direction j, and so on. *)
Definition jet (dim order nen : Z) (N : pt -> nders) (x : pt) : Prop :=
  let d := fun i => (1 <= i <= dim)%Z in
  forall a, (1 <= a <= nen)%Z ->
  ((1 <= order)%Z -> diff_at dim (fun y => n0 (N y) a) x (fun i => n1 (N x) i a)) /\
  ((2 <= order)%Z -> forall i, d i -> diff_at dim (fun y => n1 (N y) i a) x (fun j => n2 (N x) j i a)) /\
  ((3 <= order)%Z -> forall i j, d i -> d j -> diff_at dim (fun y => n2 (N y) j i a) x (fun k => n3 (N x) k j i a)) /\
  ((4 <= order)%Z -> forall i j k, d i -> d j -> d k -> diff_at dim (fun y => n3 (N y) k j i a) x (fun l => n4 (N x) l k j i a)).

(** The derivatives do not depend on the order of differentiation. *)
Definition symmetric (dim order nen : Z) (N : nders) : Prop :=
  let d := fun i => (1 <= i <= dim)%Z in
  forall a, (1 <= a <= nen)%Z ->
  ((2 <= order)%Z -> forall i j, d i -> d j -> n2 N i j a = n2 N j i a) /\
  ((3 <= order)%Z -> forall i j k, d i -> d j -> d k -> n3 N i j k a = n3 N j i k a /\ n3 N i j k a = n3 N i k j a).

(** Scalar product. *)
Definition dot (n : Z) (u v : Z -> R) : R := rsum (fun j => u j * v j) (zseq 1 n).

(** Products of univariate functions: function number (i1,i2,i3), counted with the first index running fastest, is
    b_1,i1(x1) b_2,i2(x2) b_3,i3(x3) (the first dim factors). *)
Definition tensor_value (dim na1 na2 : Z) (b : Z -> Z -> R -> R) (a : Z) (x : pt) : R :=
  let i := fun d => if (d =? 1)%Z then ((a-1) mod na1 + 1)%Z
                    else if (d =? 2)%Z then ((a-1) / na1 mod na2 + 1)%Z
                    else ((a-1) / na1 / na2 + 1)%Z in
  fold_right Rmult 1 (map (fun d => b d (i d) (x d)) (zseq 1 dim)).

(** Division by the weighted sum. *)
Definition rational_value (nen : Z) (W : option (Z -> R)) (f : Z -> pt -> R) (a : Z) (x : pt) : R :=
  match W with
  | Some W => W a * f a x / rsum (fun c => W c * f c x) (zseq 1 nen)
  | None => f a x
  end.
