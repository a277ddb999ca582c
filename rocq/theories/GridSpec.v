(** What a distributed grid and its vector transfers should be. *)
From Coq Require Import ZArith List Bool Reals.
From Verif Require Import Prelude Box GridModel.
Import ListNotations.
Open Scope Z_scope.

(** The owned boxes of ranks 0..size-1 tile the grid with N d nodes in direction d. *)
Definition grid_world (size bs : Z) (N : Z -> Z) (G : Z -> grid) : Prop :=
  1 <= size /\ 1 <= bs /\ (forall d, 0 <= d < 3 -> 1 <= N d) /\
  (forall r, 0 <= r < size -> gr_dof (G r) = bs /\
     forall d, 0 <= d < 3 -> gr_sizes (G r) d = N d /\ 0 <= gr_lstart (G r) d /\ 0 <= gr_lwidth (G r) d /\
       gr_lstart (G r) d + gr_lwidth (G r) d <= N d /\ 0 <= gr_gwidth (G r) d) /\
  (forall t, in_box zero3 N t -> exists! r, 0 <= r < size /\ in_box (gr_lstart (G r)) (gr_lwidth (G r)) t).

(** Coordinates taken modulo the grid size. *)
Definition modbox (N : Z -> Z) (t : triple) : triple :=
  let '(i, j, k) := t in (i mod N 0, j mod N 1, k mod N 2).

Definition rsum {A} (f : A -> R) (l : list A) : R := fold_right Rplus 0%R (map f l).

(** Boxes of ranks 0..size-1 partition the box [0,N). *)
Definition boxes_tile (size : Z) (N : Z -> Z) (st wd : Z -> Z -> Z) : Prop :=
  (forall r, 0 <= r < size -> subbox (st r) (wd r) zero3 N) /\
  (forall t, in_box zero3 N t -> exists! r, 0 <= r < size /\ in_box (st r) (wd r) t).

Definition tadd (s : Z -> Z) (t : triple) : triple := let '(i, j, k) := t in (s 0 + i, s 1 + j, s 2 + k).
Definition tsub (s : Z -> Z) (t : triple) : triple := let '(i, j, k) := t in (i - s 0, j - s 1, k - s 2).

Definition triple_eqb (t u : triple) : bool :=
  let '(i, j, k) := t in let '(i', j', k') := u in (i =? i') && (j =? j') && (k =? k').
