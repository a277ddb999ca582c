(** Model of the element iterator, the form iterator, the point iterator, element closures and the
    element-by-element assembly loops (src/petigaelem.c, src/petigaksp.c, src/petigasnes.c,
    src/petigacomp.c).  Definitions only. *)
From Coq Require Import ZArith List Bool Reals.
From Verif Require Import Prelude Box AxisModel AxisInitModel SetupModel GridModel.
Import ListNotations.
Open Scope Z_scope.

(** * Element iterator *)
(** The fields of struct _n_IGAElement used by the iterators. *)
Record elem := mk_elem {
  el_dim : Z; el_start : Z -> Z; el_width : Z -> Z; el_sizes : Z -> Z;
  el_count : Z; el_index : Z; el_ID : Z -> Z;
  el_bid : Z;       (* boundary_id *)
  el_atb : bool }.  (* atboundary *)

Definition el_set_index (e : elem) (i : Z) : elem :=
  mk_elem (el_dim e) (el_start e) (el_width e) (el_sizes e) (el_count e) i (el_ID e) (el_bid e) (el_atb e).
Definition el_set_ID (e : elem) (id : Z -> Z) : elem :=
  mk_elem (el_dim e) (el_start e) (el_width e) (el_sizes e) (el_count e) (el_index e) id (el_bid e) (el_atb e).
Definition el_set_b (e : elem) (b : Z) (atb : bool) : elem :=
  mk_elem (el_dim e) (el_start e) (el_width e) (el_sizes e) (el_count e) (el_index e) (el_ID e) b atb.

(** src/petigaelem.c:152-183 IGAElementInit, first block; boundary fields keep their value [e0]. *)
Definition elem_init (e0 : elem) (dim : Z) (start width sizes : Z -> Z) : elem :=
  mk_elem dim (fun i => if i <? dim then start i else 0) (fun i => if i <? dim then width i else 1)
          (fun i => if i <? dim then sizes i else 1)
          (fold_left (fun nel i => nel * width i) (zseq 0 dim) 1) (-1) (fun _ => 0) (el_bid e0) (el_atb e0).

(** src/petigaelem.c:274-373 IGABeginElement (iterator fields). *)
Definition begin_element (e : elem) : elem := el_set_b (el_set_index e (-1)) (-1) false.

(** src/petigaelem.c:390-394: the coordinates of a linear element index; C's % and / truncate. *)
Definition split_index (dim : Z) (start width : Z -> Z) (index : Z) (ID : Z -> Z) : Z * (Z -> Z) :=
  fold_left (fun st i =>
    let '(index, ID) := st in
    let coord := Z.rem index (width i) in
    (Z.quot (index - coord) (width i), upd ID i (coord + start i)))
  (zseq 0 dim) (index, ID).

(** src/petigaelem.c:375-410 IGANextElement (closure and boundary tables are modelled separately). *)
Definition next_element (e : elem) : bool * elem :=
  let index := el_index e + 1 in
  if el_count e <=? index then (false, el_set_index e (-1))
  else (true, el_set_ID (el_set_index e index) (snd (split_index (el_dim e) (el_start e) (el_width e) index (el_ID e)))).

(** src/petigaelem.c:412-425 IGAEndElement (PETSC_ERR_PLIB as ErrState). *)
Definition end_element (e : elem) : status := if el_index e =? -1 then Ok else ErrState.

Definition el_triple (e : elem) : triple := (el_ID e 0, el_ID e 1, el_ID e 2).

(** [while (IGANextElement(iga,element)) visit(element)]: the elements visited and the final state;
    [None] when the loop is still running after [fuel] calls. *)
Fixpoint element_loop (fuel : nat) (e : elem) : option (list triple * elem) :=
  match fuel with
  | 0%nat => None
  | S f =>
      match next_element e with
      | (true, e1) => match element_loop f e1 with
                      | Some (l, e2) => Some (el_triple e1 :: l, e2)
                      | None => None
                      end
      | (false, e1) => Some ([], e1)
      end
  end.

(** * Form iterator *)
(** src/petigaelem.c:430-439: the while loop of IGAElementNextForm. *)
Fixpoint form_scan (fuel : nat) (visit : Z -> Z -> bool) (e : elem) : bool * elem :=
  match fuel with
  | 0%nat => (false, e)
  | S f =>
      let b := el_bid e + 1 in
      if b <? 2 * el_dim e then
        let i := Z.quot b 2 in let s := Z.rem b 2 in
        let ends := if s =? 0 then 0 else el_sizes e i - 1 in
        if negb (el_ID e i =? ends) then form_scan f visit (el_set_b e b (el_atb e))
        else if negb (visit i s) then form_scan f visit (el_set_b e b (el_atb e))
        else (true, el_set_b e b true)
      else (false, el_set_b e b (el_atb e))
  end.
(** src/petigaelem.c:427-447 IGAElementNextForm *)
Definition next_form (visit : Z -> Z -> bool) (e : elem) : bool * elem :=
  match form_scan (S (Z.to_nat (2 * el_dim e - el_bid e))) visit e with
  | (true, e1) => (true, e1)
  | (false, e1) =>
      if el_bid e1 =? 2 * el_dim e1 then (true, el_set_b e1 (el_bid e1 + 1) false)
      else (false, el_set_b e1 (-1) false)
  end.

(** What one form visit integrates over. *)
Inductive form_visit := Face (axis side : Z) | Interior.
Definition form_of (e : elem) : form_visit :=
  if el_atb e then Face (Z.quot (el_bid e) 2) (Z.rem (el_bid e) 2) else Interior.

Fixpoint form_loop (fuel : nat) (visit : Z -> Z -> bool) (e : elem) : option (list form_visit * elem) :=
  match fuel with
  | 0%nat => None
  | S f =>
      match next_form visit e with
      | (true, e1) => match form_loop f visit e1 with
                      | Some (l, e2) => Some (form_of e1 :: l, e2)
                      | None => None
                      end
      | (false, e1) => Some ([], e1)
      end
  end.

(** * Boundary-form flags *)
(** src/petigaform.c:134-141, 348-365 IGASetBoundaryForm: checks axis against dim (when set) and 3. *)
Definition set_boundary_form (dim axis side : Z) (flag : bool) (visit : Z -> Z -> bool) : status * (Z -> Z -> bool) :=
  if (0 <? dim) && negb ((0 <=? axis) && (axis <? dim)) then (ErrRange, visit)
  else if negb ((0 <=? axis) && (axis <? 3)) then (ErrRange, visit)
  else if negb ((0 <=? side) && (side <? 2)) then (ErrRange, visit)
  else (Ok, fun a s => if (a =? axis) && (s =? side) then flag else visit a s).

(** * Point iterator *)
(** src/petigaelem.c:477-592 IGAElementNextPoint: (result, point->index, offset of point->weight from
    element->weight); the other arrays move in step. *)
Definition next_point (count : Z) (st : Z * Z) : bool * (Z * Z) :=
  let index := fst st + 1 in
  if index =? 0 then (true, (index, 0))
  else if count <=? index then (false, (-1, snd st))
  else (true, (index, snd st + 1)).
Fixpoint point_loop (fuel : nat) (count : Z) (st : Z * Z) : option (list Z * (Z * Z)) :=
  match fuel with
  | 0%nat => None
  | S f => match next_point count st with
           | (true, st1) => match point_loop f count st1 with
                            | Some (l, st2) => Some (snd st1 :: l, st2)
                            | None => None end
           | (false, st1) => Some ([], st1)
           end
  end.

(** * Closure *)
(** src/petigabasis.c:117,188 basis->nen and basis->offset (quadrature); unused directions have a
    degree-0 axis with one span: nen = 1, offset 0. *)
Definition basis_nen {O : KnotOrd} (dim : Z) (axes : Z -> axis O) (i : Z) : Z :=
  if i <? dim then ax_p (axes i) + 1 else 1.
Definition basis_offset {O : KnotOrd} (dim : Z) (axes : Z -> axis O) (i e : Z) : Z :=
  if i <? dim then span_at (axes i) e - ax_p (axes i) else 0.

(** src/petigaelem.c:693-717 IGAElementBuildClosure: element->mapping; [gst], [gwd] are node_gstart
    and node_gwidth. *)
Definition closure (off nen gst gwd : Z -> Z) : list Z :=
  map (fun t => let '(ia, ja, ka) := t in
         let iA := (off 0 + ia) - gst 0 in
         let jA := (off 1 + ja) - gst 1 in
         let kA := (off 2 + ka) - gst 2 in
         iA + jA * gwd 0 + kA * (gwd 0 * gwd 1)) (box zero3 nen).

(** The offsets of element e = (e0,e1,e2). *)
Definition elem_off {O : KnotOrd} (dim : Z) (axes : Z -> axis O) (e : triple) (i : Z) : Z :=
  let '(e0, e1, e2) := e in basis_offset dim axes i (if i =? 0 then e0 else if i =? 1 then e1 else e2).

(** src/petigaelem.c:1074-1100 IGAElementGetValues: the element's copy of a local array. *)
Definition get_values {A} (dof : Z) (mapping : list Z) (L : Z -> A) : list A :=
  flat_map (fun m => map (fun i => L (m * dof + i)) (zseq 0 dof)) mapping.

(** * Assembly *)
(** VecSetValuesBlockedLocal(ADD_VALUES) + VecAssembly: entries (index, value); negative indices are
    ignored. *)
Definition add_entries (l : list (Z * R)) (V : Z -> R) : Z -> R :=
  fold_left (fun V p => if fst p <? 0 then V else upd V (fst p) (V (fst p) + snd p)%R) l V.
(** MatSetValuesBlockedLocal(ADD_VALUES) + MatAssembly. *)
Definition upd2 (M : Z -> Z -> R) (i j : Z) (x : R) : Z -> Z -> R :=
  fun a b => if (a =? i) && (b =? j) then x else M a b.
Definition add_entries2 (l : list (Z * Z * R)) (M : Z -> Z -> R) : Z -> Z -> R :=
  fold_left (fun M p => let '(i, j, x) := p in
    if (i <? 0) || (j <? 0) then M else upd2 M i j (M i j + x)%R) l M.

Section Assembly.
  Variable size : Z.
  Variable G : Z -> grid.
  Variable dof : Z.
  Variable elems : Z -> list triple.        (* the elements rank r iterates over *)
  Variable mapping : Z -> triple -> list Z. (* element->mapping on rank r *)
  (** Element kernels: everything between IGAElementGetValues and IGAElementAssemble* (form loop,
      quadrature loop, user callback, boundary fix), as a function of the element and of the element's
      copies of the input vectors; result indexed like the C arrays. *)
  Variable Fe : triple -> list (list R) -> Z -> R.
  Variable Ke : triple -> list (list R) -> Z -> R.
  Variable inputs : list (Z -> R).          (* global input vectors *)
  Variable L0 : Z -> Z -> R.                (* previous contents of the local vectors *)

  (** IGAGetLocalVecArray + IGAElementGetValues for each input *)
  Definition elem_inputs (r : Z) (e : triple) : list (list R) :=
    map (fun V => get_values dof (mapping r e) (global_to_local size G V r (L0 r))) inputs.

  (** src/petigaelem.c:1525-1540 IGAElementAssembleVec (quadrature: rowmap = mapping) *)
  Definition vec_entries (r : Z) (e : triple) : list (Z * R) :=
    flat_map (fun p => map (fun c => (dof * lgmap size G r (snd p) + c, Fe e (elem_inputs r e) (fst p * dof + c)))
                           (zseq 0 dof))
             (combine (zseq 0 (Z.of_nat (length (mapping r e)))) (mapping r e)).

  (** src/petigaelem.c:1542-1559 IGAElementAssembleMat (rowmap = colmap = mapping) *)
  Definition mat_entries (r : Z) (e : triple) : list (Z * Z * R) :=
    let nen := Z.of_nat (length (mapping r e)) in
    flat_map (fun p => flat_map (fun c => flat_map (fun q => map (fun d =>
        (dof * lgmap size G r (snd p) + c, dof * lgmap size G r (snd q) + d,
         Ke e (elem_inputs r e) ((fst p * dof + c) * (nen * dof) + (fst q * dof + d))))
        (zseq 0 dof)) (combine (zseq 0 nen) (mapping r e))) (zseq 0 dof))
      (combine (zseq 0 nen) (mapping r e)).

  (** src/petigaksp.c:34-78, src/petigasnes.c:24-80 (IGAComputeVector, IGAComputeFunction and the TS
      variants): zero, element loop, assembly; [order] is the order of the ranks' contributions. *)
  Definition compute_vector (order : list Z) : Z -> R :=
    fold_left (fun V r => fold_left (fun V e => add_entries (vec_entries r e) V) (elems r) V) order (fun _ => 0%R).
  (** src/petigaksp.c:80-125, src/petigasnes.c:82-130 *)
  Definition compute_matrix (order : list Z) : Z -> Z -> R :=
    fold_left (fun M r => fold_left (fun M e => add_entries2 (mat_entries r e) M) (elems r) M) order (fun _ _ => 0%R).

  (** src/petigacomp.c:35-90 IGAComputeScalar: [npts e] quadrature points; [Sc e q u i] the user value and
      [JW e q] = detJac*weight. *)
  Variable npts : triple -> Z.
  Variable JW : triple -> Z -> R.
  Variable Sc : triple -> Z -> list (list R) -> Z -> R.
  Definition local_scalar (r i : Z) : R :=
    fold_left (fun s e => fold_left (fun s q => s + Sc e q (elem_inputs r e) i * JW e q)%R (zseq 0 (npts e)) s)
              (elems r) 0%R.
  Definition compute_scalar (order : list Z) (i : Z) : R :=
    fold_left (fun s r => (s + local_scalar r i)%R) order 0%R.
End Assembly.

(** The elements rank r iterates over (IGABeginElement + loop). *)
Definition rank_elements (e0 : elem) (dim : Z) (start width sizes : Z -> Z) : list triple :=
  let e := begin_element (elem_init e0 dim start width sizes) in
  match element_loop (Z.to_nat (el_count e + 1)) e with Some (l, _) => l | None => [] end.
