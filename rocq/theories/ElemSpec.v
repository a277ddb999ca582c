(** What iteration and assembly should do. *)
From Coq Require Import ZArith List Bool Reals.
From Verif Require Import Prelude Box GridSpec.
Import ListNotations.
Open Scope Z_scope.

(** Values attached to the nodes of an N 0 x N 1 x N 2 grid. *)
Definition nodal := triple -> Z -> R.

(** Element [e] of a tensor-product discretisation couples the nodes first e + a, 0 <= a < nen,
    wrapped around periodic directions. *)
Section Serial.
  Variable N nen : Z -> Z.
  Variable first : triple -> Z -> Z.   (* first e d: first function active on e, direction d *)
  Variable dof : Z.
  Variable nel : Z -> Z.

  Definition elem_node (e a : triple) : triple := modbox N (tadd (first e) a).
  (** The element's copy of nodal values, in the layout documented for IGAElementGetValues. *)
  Definition elem_copy (e : triple) (X : nodal) : list R :=
    flat_map (fun a => map (X (elem_node e a)) (zseq 0 dof)) (box zero3 nen).

  (** Serial assembly: the sum over all elements of their entries for node t. *)
  Definition serial_vector (Fe : triple -> list (list R) -> Z -> R) (ins : list nodal) (t : triple) (c : Z) : R :=
    rsum (fun e => rsum (fun a => if triple_eqb (elem_node e a) t then Fe e (map (elem_copy e) ins) (lin nen a * dof + c) else 0%R)
                        (box zero3 nen)) (box zero3 nel).
  Definition serial_matrix (Ke : triple -> list (list R) -> Z -> R) (ins : list nodal) (t : triple) (c : Z) (u : triple) (d : Z) : R :=
    rsum (fun e => rsum (fun a => rsum (fun b =>
        if triple_eqb (elem_node e a) t && triple_eqb (elem_node e b) u
        then Ke e (map (elem_copy e) ins) ((lin nen a * dof + c) * (vol nen * dof) + (lin nen b * dof + d)) else 0%R)
        (box zero3 nen)) (box zero3 nen)) (box zero3 nel).
  Definition serial_scalar (npts : triple -> Z) (JW : triple -> Z -> R) (Sc : triple -> Z -> list (list R) -> Z -> R)
      (ins : list nodal) (i : Z) : R :=
    rsum (fun e => rsum (fun q => Sc e q (map (elem_copy e) ins) i * JW e q)%R (zseq 0 (npts e))) (box zero3 nel).
End Serial.

Definition coord (t : triple) (d : Z) : Z := let '(i, j, k) := t in if d =? 0 then i else if d =? 1 then j else k.
