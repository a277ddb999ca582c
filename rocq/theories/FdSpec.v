(** What a point residual and its Jacobian are. *)
From Coq Require Import ZArith List Bool Reals.
From Verif Require Import Prelude GridSpec.
Import ListNotations.
Open Scope Z_scope.

(** Arrays equal in their first N entries. *)
Definition same (N : Z) (X Y : Z -> R) : Prop := forall k, 0 <= k < N -> X k = Y k.
(** X with d added to entry j. *)
Definition bump (X : Z -> R) (j : Z) (d : R) : Z -> R := fun k => if k =? j then (X k + d)%R else X k.
(** The affine function of one array with coefficients K i j, without constant term. *)
Definition lin_part (N : Z) (K : Z -> Z -> R) (X : Z -> R) (i : Z) : R := rsum (fun j => (K i j * X j)%R) (zseq 0 N).
(** The increment of Walker and Pernice for a unit direction: sqrteps * sqrt(1 + |U|) with the Euclidean norm. *)
Definition wp_step (sqrteps : R) (N : Z) (U : Z -> R) : R := (sqrteps * sqrt (1 + sqrt (rsum (fun i => (U i * U i)%R) (zseq 0 N))))%R.
