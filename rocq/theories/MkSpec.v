(** Nodes on a line of processes; independent of the code.  Process q of P owns the nodes b q, ..., b (q+1) - 1 and uses
    them and the next ones up to e q - 1. *)
From Coq Require Import ZArith.
Open Scope Z_scope.

Section Line.
  Variable P : Z.
  Variables b e : Z -> Z.
  (** Every process owns a node, and uses some of the nodes of the next one, but not all; the last one no others. *)
  Definition line_ok : Prop :=
    1 <= P /\ (forall q, 0 <= q < P -> b q < b (q+1)) /\ (forall q, 0 <= q < P - 1 -> b (q+1) <= e q < b (q+2)) /\ e (P-1) = b P.
  (** used by two processes *)
  Definition shared (x : Z) : Prop := exists q, 0 <= q < P - 1 /\ b (q+1) <= x < e q.
  (** the middle of the nodes that q shares with the next process *)
  Definition middle (x : Z) : Prop :=
    exists q, 0 <= q < P - 1 /\ b (q+1) < e q /\ x = e q - 1 - (e q - b (q+1)) / 2.
  (** the last node of a process that owns several and shares none with the next *)
  Definition unshared_end (x : Z) : Prop := exists q, 0 <= q < P /\ b (q+1) = e q /\ x = e q - 1 /\ b q + 1 < b (q+1).
End Line.
