(** What a preconditioner of this kind should be: the sum of the inverses of the diagonal blocks of A. *)
From Coq Require Import ZArith List Bool Reals.
From Verif Require Import Prelude Box GridSpec.
Import ListNotations.
Open Scope Z_scope.

(** x^T A y *)
Definition qform (n : Z) (A : Z -> Z -> R) (x y : Z -> R) : R :=
  rsum (fun i => rsum (fun j => x i * A i j * y j)%R (zseq 0 n)) (zseq 0 n).
Definition symmetric (n : Z) (A : Z -> Z -> R) : Prop := forall i j, 0 <= i < n -> 0 <= j < n -> A i j = A j i.
(** symmetric positive definite *)
Definition spd (n : Z) (A : Z -> Z -> R) : Prop :=
  symmetric n A /\ forall x, (exists i, 0 <= i < n /\ x i <> 0%R) -> (0 < qform n A x x)%R.
Definition inverse_of (n : Z) (A X : Z -> Z -> R) : Prop :=
  forall i k, 0 <= i < n -> 0 <= k < n ->
    rsum (fun j => A i j * X j k)%R (zseq 0 n) = (if i =? k then 1 else 0)%R /\
    rsum (fun j => X i j * A j k)%R (zseq 0 n) = (if i =? k then 1 else 0)%R.

(** Entries of the list [l] of unknowns. *)
Definition at_ (l : list Z) (a : Z) : Z := nth (Z.to_nat a) l 0.
Definition restrict (l : list Z) (A : Z -> Z -> R) : Z -> Z -> R := fun a b => A (at_ l a) (at_ l b).

(** LAPACK inverts column-major arrays, and does not stop on a positive definite one. *)
Definition inverts (lapack : Z -> (Z -> R) -> option (Z -> R)) : Prop :=
  (forall n v X, 1 <= n -> lapack n v = Some X -> inverse_of n (fun i j => v (i + j * n)) (fun i j => X (i + j * n))) /\
  (forall n v, 1 <= n -> spd n (fun i j => v (i + j * n)) -> lapack n v <> None).

(** B is the sum over the blocks of the inverses of the restrictions of A. *)
Definition sum_of_inverses (n : Z) (A B : Z -> Z -> R) (blocks : list (list Z)) : Prop :=
  exists X : list Z -> Z -> Z -> R,
  (forall l, In l blocks -> inverse_of (Z.of_nat (length l)) (restrict l A) (X l)) /\
  forall x y, qform n B x y =
    rsum (fun l => qform (Z.of_nat (length l)) (X l) (fun a => x (at_ l a)) (fun b => y (at_ l b))) blocks.

(** The unknowns of element e that process r owns, in the order of the element: [node a] is the a-th node of the element,
    [number] its global number. *)
Definition element_unknowns (own : triple -> bool) (number : triple -> Z) (dof : Z) (nodes : list triple) : list Z :=
  flat_map (fun t => if own t then map (fun c => dof * number t + c) (zseq 0 dof) else []) nodes.
