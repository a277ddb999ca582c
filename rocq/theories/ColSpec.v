(** What a collocation method should do. *)
From Coq Require Import ZArith List Bool Reals.
From Verif Require Import Prelude RealOrd AxisModel AxisSpec SetupModel SetupProps Box GridSpec ElemModel BCSpec DrvSpec TabModel ColModel ElemSpec.
Import ListNotations.
Open Scope Z_scope.

(** The Greville abscissa of B-spline function number c: the mean of its p inner knots. *)
Definition greville_abscissa (p : Z) (U : Z -> R) (c : Z) : R := (rsum (fun j => U (c + j)%Z) (zseq 1 p) / IZR p)%R.
(** Node i of an axis with nnp nodes stands for function i + images: on a periodic axis m-p-nnp functions are images of
    others, half of them (rounded down) before the first node. *)
Definition images (p m nnp : Z) : Z := (m - p - nnp) / 2.
Definition in_domain (p m : Z) (U : Z -> R) (u : R) : Prop := (U p <= u <= U (m - p)%Z)%R.

(** The one equation collocated at node t belongs to the first face through t that has a boundary form, or else to the
    interior. *)
Definition point_form (dim : Z) (nnp : Z -> Z) (visit : Z -> Z -> bool) (t : triple) : form_visit :=
  hd Interior (pieces dim nnp visit t).

(** The rows of node t: one equation per component, coupling the nodes whose functions are listed at the point of t. *)
Section Rows.
  Variables N nen : Z -> Z.
  Variable first : triple -> Z -> Z.
  Variable dof : Z.
  Definition colloc_matrix (Ke : triple -> list (list R) -> Z -> R) (ins : list nodal) (t : triple) (c : Z) (u : triple) (d : Z) : R :=
    rsum (fun b => if triple_eqb (elem_node N first t b) u
                   then Ke t (map (elem_copy N nen first dof t) ins) (c * (vol nen * dof) + (lin nen b * dof + d)) else 0%R)
         (box zero3 nen).
End Rows.

(** Boundary conditions at node t, in the order in which they take effect: on each face through t first the loads, then
    the values.  A condition is a component, the coefficients of the equation and its right-hand side. *)
Section Conditions.
  Variable dim : Z.
  Variable nnp : Z -> Z.
  Variables value load : Z -> Z -> list (Z * R).
  Variable shape : Z -> R.                (* value at the point of the function listed at position a *)
  Variable dnormal : Z -> Z -> Z -> R.    (* its derivative in the direction of the normal of face (d,s) *)
  Definition conditions (t : triple) : list (Z * (Z -> R) * R) :=
    flat_map (fun f => let '(d, s) := f in
      if coord t d =? (if s =? 0 then 0 else nnp d - 1)
      then map (fun cv => (fst cv, dnormal d s, snd cv)) (load d s) ++ map (fun cv => (fst cv, shape, snd cv)) (value d s)
      else []) (faces dim).
  (** the last one for component c *)
  Definition condition (t : triple) (c : Z) : option ((Z -> R) * R) :=
    fold_left (fun cur x => if fst (fst x) =? c then Some (snd (fst x), snd x) else cur) (conditions t) None.
End Conditions.

(** The value prescribed for component c of node t by IGASetBoundaryValue: that of the last face through t that has one. *)
Section Prescribed.
  Variable dim : Z.
  Variable nnp : Z -> Z.
  Variable value : Z -> Z -> list (Z * R).
  Definition node_value (t : triple) (c : Z) : option R :=
    fold_left (fun cur f => if coord t (fst f) =? (if snd f =? 0 then 0 else nnp (fst f) - 1)
                            then match lookup c (value (fst f) (snd f)) with Some v => Some v | None => cur end else cur)
              (faces dim) None.
End Prescribed.

(** * What IGASetUp leaves *)
(** IGASetUp with collocation succeeded on every rank with layouts [LY r]; the axes are consistent, the end intervals of
    their domains are nonempty and there are at least as many nodes as leading images; [g2], [g3] are rounded roots. *)
Definition col_setup_ok (g2 : Z -> Z -> Z -> Z) (g3 : Z -> Z -> Z -> Z -> Z)
    (maxint size dim : Z) (axes : Z -> axis Rord) (user : list Z) (LY : Z -> layout) : Prop :=
  (forall a b c, 0 <= g2 a b c) /\ (forall a b c d, 0 <= g3 a b c d) /\ 1 <= size /\
  (forall i, 0 <= i < dim -> axis_ready (axes i) /\ ends_nonempty (O:=Rord) (ax_p (axes i)) (ax_m (axes i)) (ax_U (axes i)) /\
     images (ax_p (axes i)) (ax_m (axes i)) (ax_nnp (axes i)) <= ax_nnp (axes i)) /\
  (forall r, 0 <= r < size -> col_stage1 g2 g3 maxint size r dim axes user = (Ok, Some (LY r))).
(** and the tables of the three directions *)
Definition col_tables (CB : Z -> R -> Z -> Z -> (Z -> R) -> Z -> Z -> R) (dim : Z) (axes : Z -> axis Rord) (BT : Z -> btable) : Prop :=
  forall i, 0 <= i < 3 ->
    setup_colloc CB dim i true (ax_p (axes i)) (ax_m (axes i)) (ax_U (axes i)) (ax_nnp (axes i)) = (Ok, Some (BT i)).
