(** Grid hierarchies, independent of how the factors are chosen. *)
From Coq Require Import ZArith List Bool.
From Verif Require Import Prelude.
Import ListNotations.
Open Scope Z_scope.

(** Number of intervals of a grid with n points. *)
Definition intervals (wraps : bool) (n : Z) : Z := if wraps then n else n - 1.
(** Number of cells of a box with M i intervals in direction i < dim. *)
Definition cell_count (dim : Z) (M : Z -> Z) : Z := fold_right Z.mul 1 (map M (zseq 0 dim)).
(** The coarse grid Mc is nested in the fine grid M: every coarse interval is the union of equally many fine ones, and at
    least one direction is coarsened. *)
Definition nested (dim : Z) (M Mc : Z -> Z) : Prop :=
  exists f : Z -> Z, (forall i, 0 <= i < dim -> 1 <= f i /\ 1 <= Mc i /\ M i = f i * Mc i) /\ exists i, 0 <= i < dim /\ 2 <= f i.
