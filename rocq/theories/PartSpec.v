(** What it means to split an index range over processes. *)
From Coq Require Import ZArith List Bool.
From Verif Require Import Prelude.
Import ListNotations.
Open Scope Z_scope.

(** Blocks [start r, start r + width r), r = 0..P-1, are consecutive and cover 0..N-1. *)
Definition tiles (P N : Z) (start width : Z -> Z) : Prop :=
  1 <= P /\ start 0 = 0 /\
  (forall r, 0 <= r < P -> 0 <= width r) /\
  (forall r, 0 <= r < P - 1 -> start (r+1) = start r + width r) /\
  start (P-1) + width (P-1) = N.

(** Tuple [c] lies in the grid with [n] cells per direction. *)
Definition in_grid (n c : list Z) : Prop :=
  length c = length n /\ Forall2 (fun nk ck => 0 <= ck < nk) n c.

(** Mixed radix value of a coordinate tuple, first coordinate fastest. *)
Fixpoint grid_index (n c : list Z) : Z :=
  match n, c with
  | n0 :: n', c0 :: c' => c0 + n0 * grid_index n' c'
  | _, _ => 0
  end.
