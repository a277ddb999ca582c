(** Places of a sparse matrix that are written by adding square blocks; no reference to the model. *)
From Coq Require Import ZArith List.
Import ListNotations.
Open Scope Z_scope.

(** The place (i,j) is written when some block has both indices. *)
Definition written (blocks : list (list Z)) (i j : Z) : Prop := exists b, In b blocks /\ In i b /\ In j b.
(** The dof x dof tile (I,J) is written. *)
Definition tile_written (dof : Z) (blocks : list (list Z)) (I J : Z) : Prop :=
  exists i j, written blocks i j /\ i / dof = I /\ j / dof = J.
(** At most n different elements have property P. *)
Definition at_most (n : Z) (P : Z -> Prop) : Prop := forall L, NoDup L -> (forall x, In x L -> P x) -> Z.of_nat (length L) <= n.
(** Storage: every row of the process with columns s..e-1 has room for [d] entries in these columns and [o] in the others. *)
Definition room (d o s e : Z) (P : Z -> Prop) : Prop :=
  at_most d (fun j => P j /\ s <= j < e) /\ at_most o (fun j => P j /\ ~ s <= j < e).
