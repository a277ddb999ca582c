(** Specification for C32: nodal bases. *)
From Coq Require Import ZArith List Reals.
From Coquelicot Require Import Coquelicot.
From Verif Require Import Prelude GridSpec RuleSpec.
Open Scope R_scope.

(** What the table of a nodal basis must satisfy, nodes X(0..p) in the element [u0,u1], rows 0..3 as functions
    of the evaluation point: interpolation at distinct nodes, reproduction of all polynomials of degree at most
    p (hence summing to one), derivatives. *)
Definition nodal_basis (p : Z) (X : Z -> R) (B : R -> Z -> Z -> R) : Prop :=
  (forall i j, (0 <= i <= p)%Z -> (0 <= j <= p)%Z -> i <> j -> X i <> X j) /\
  (forall m j, (0 <= m <= p)%Z -> (0 <= j <= p)%Z -> B (X j) 0%Z m = if (j =? m)%Z then 1 else 0) /\
  (forall c u, (length c <= Z.to_nat (p+1))%nat -> rsum (fun m => peval c (X m) * B u 0%Z m) (zseq 0 (p+1)) = peval c u) /\
  (forall u, rsum (fun m => B u 0%Z m) (zseq 0 (p+1)) = 1) /\
  (forall m k u, (0 <= m <= p)%Z -> (0 <= k <= 3)%Z -> is_derive_n (fun v => B v 0%Z m) (Z.to_nat k) u (B u k m)) /\
  (forall k u, (1 <= k <= 3)%Z -> rsum (fun m => B u k m) (zseq 0 (p+1)) = 0).
