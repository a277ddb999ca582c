(** What the assembly drivers should compute. *)
From Coq Require Import ZArith List Bool Reals.
From Verif Require Import Prelude Box GridSpec ElemModel ElemSpec BCSpec.
Import ListNotations.
Open Scope Z_scope.

Section DrvSpec.
  Variables dim dof : Z.
  Variables N nen nel : Z -> Z.
  Variable first : triple -> Z -> Z.
  Variable visit : Z -> Z -> bool.
  Variable npts : triple -> form_visit -> Z.
  Variable JW : triple -> form_visit -> Z -> R.
  Variable presc : triple -> Z -> option R.         (* prescribed value of component c of node t *)
  Variable loads : triple -> triple -> Z -> R.      (* load on local node a, component c of element e *)

  (** The pieces element e is integrated over: the faces of the domain it touches for which the user asked for
      boundary integration, and its interior. *)
  Definition pieces (e : triple) : list form_visit :=
    map (fun f => Face (fst f) (snd f))
      (filter (fun f => visit (fst f) (snd f) && (coord e (fst f) =? (if snd f =? 0 then 0 else nel (fst f) - 1))) (faces dim))
    ++ [Interior].
  (** Quadrature of g over them. *)
  Definition integral (e : triple) (g : form_visit -> Z -> R) : R :=
    rsum (fun f => rsum (fun q => g f q * JW e f q)%R (zseq 0 (npts e f))) (pieces e).

  (** Nodal values with the prescribed ones imposed; and with zeros there (rates of prescribed values). *)
  Definition held (x : nodal) : nodal := fun t c => match presc t c with Some v => v | None => x t c end.
  Definition released (x : nodal) : nodal := fun t c => match presc t c with Some _ => 0%R | None => x t c end.
  (** The element's array of nodal values. *)
  Definition earr (e : triple) (x : nodal) : Z -> R :=
    fun i => if i <? 0 then 0%R else nth (Z.to_nat i) (elem_copy N nen first dof e x) 0%R.

  (** Sum over all (element, local node) pairs that are node t. *)
  Definition scatter (g : triple -> triple -> R) (t : triple) : R :=
    rsum (fun e => rsum (fun a => if triple_eqb (elem_node N first e a) t then g e a else 0%R) (box zero3 nen)) (box zero3 nel).
  Definition multiplicity (t : triple) : R := scatter (fun _ _ => 1%R) t.
  Definition scatter2 (g : triple -> triple -> triple -> R) (t u : triple) : R :=
    scatter (fun e a => rsum (fun b => if triple_eqb (elem_node N first e b) u then g e a b else 0%R) (box zero3 nen)) t.

  (** Assembled vector and matrix of point contributions; no boundary conditions. *)
  Definition plain_vector (g : triple -> form_visit -> Z -> Z -> R) (t : triple) (c : Z) : R :=
    scatter (fun e a => integral e (fun f q => g e f q (lin nen a * dof + c))) t.
  Definition plain_matrix (g : triple -> form_visit -> Z -> Z -> R) (t : triple) (c : Z) (u : triple) (d : Z) : R :=
    scatter2 (fun e a b => integral e (fun f q => g e f q ((lin nen a * dof + c) * (vol nen * dof) + (lin nen b * dof + d)))) t u.
  (** Total load on a node. *)
  Definition plain_load (t : triple) (c : Z) : R := scatter (fun e a => loads e a c) t.

  (** Residual with conditions imposed: x - v at prescribed dofs (once per element copy), the integrals minus
      the loads elsewhere. *)
  Definition residual (g : triple -> form_visit -> Z -> Z -> R) (x : nodal) (t : triple) (c : Z) : R :=
    match presc t c with
    | Some v => multiplicity t * (x t c - v)
    | None => plain_vector g t c - plain_load t c
    end%R.
  (** Jacobian: identity rows and columns at prescribed dofs (with the same multiplicity). *)
  Definition jacobian (g : triple -> form_visit -> Z -> Z -> R) (t : triple) (c : Z) (u : triple) (d : Z) : R :=
    match presc t c, presc u d with
    | None, None => plain_matrix g t c u d
    | _, _ => if triple_eqb t u && (c =? d) then multiplicity t else 0%R
    end.
  (** Right-hand side of the linear system: loads, and the prescribed values' contribution. *)
  Definition system_rhs (gK gF : triple -> form_visit -> Z -> Z -> R) (t : triple) (c : Z) : R :=
    match presc t c with
    | Some v => multiplicity t * v
    | None => plain_vector gF t c + plain_load t c -
        node_row N dof (plain_matrix gK) (fun u d => match presc u d with Some v => v | None => 0 end) t c
    end%R.
End DrvSpec.

(** [J] (n x n, row major) is the derivative at [X] of the array-valued [F], in every direction.  [X] may move
    along several arguments: [curve s w] is the argument tuple at parameter s in direction w. *)
Definition is_jacobian {A} (n : Z) (F : A -> Z -> R) (curve : R -> (Z -> R) -> A) (J : Z -> R) : Prop :=
  forall w i, 0 <= i < n ->
    derivable_pt_lim (fun s => F (curve s w) i) 0 (rsum (fun j => J (i * n + j)%Z * w j)%R (zseq 0 n)).
Definition along (X : Z -> R) (s : R) (w : Z -> R) : Z -> R := fun i => (X i + s * w i)%R.
Definition nalong (x : nodal) (s : R) (y : nodal) : nodal := fun t c => (x t c + s * y t c)%R.
