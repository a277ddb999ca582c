(** Model of the collocation method (IGASetUseCollocation): the tables of IGABasisInitCollocation
    (src/petigabasis.c:226-301), the layout of the collocation points (src/petiga.c:1127-1292), the element whose
    rows are those of one node (src/petigaelem.c, the branches under element->collocation), its boundary treatment and
    its assembly.  Arithmetic is exact (reals).  Definitions only. *)
From Coq Require Import ZArith List Bool Reals.
From Verif Require Import Prelude RealOrd AxisModel AxisInitModel PartModel SetupModel Box GridModel GridSpec
  MatModel ElemModel ElemSpec BCModel DrvModel RuleModel MapModel TabModel.
Import ListNotations.
Open Scope Z_scope.

(** * Tables *)
(** src/petigabasis.c:254 shift; n + 1 - nnp is never negative, so C's division is this one. *)
Definition col_shift (p m nnp : Z) : Z := (m - p - 1 + 1 - nnp) / 2.
(** IGA_FindSpan; its loop always ends (AxisProofs2.find_span_spec), the default is never taken. *)
Definition span_of (p m : Z) (U : Z -> R) (u : R) : Z :=
  match find_span (O:=Rord) (m - p - 1) p u U with Some k => k | None => p end.
(** src/petigabasis.c:263-272: the point of node i and its span *)
Definition col_point (p m : Z) (U : Z -> R) (nnp i : Z) : R := greville (i + col_shift p m nnp) p U.
Definition col_span (p m : Z) (U : Z -> R) (nnp i : Z) : Z := span_of p m U (col_point p m U nnp i).

Section Table.
  (** IGA_Basis_BSpline(k,u,p,d,U,N) *)
  Variable CB : Z -> R -> Z -> Z -> (Z -> R) -> Z -> Z -> R.
  (** src/petigabasis.c:226-301 IGABasisInitCollocation *)
  Definition init_collocation (bspline : bool) (p m : Z) (U : Z -> R) (nnp : Z) : status * option btable :=
    if negb bspline then (ErrRange, None)
    else
      let n := m - p - 1 in let d := Z.min p 4 in
      (Ok, Some (mk_btable
        (mk_basis_q nnp 1 (p+1) (fun i => col_span p m U nnp i - p - col_shift p m nnp) (fun _ => 1%R)
                    (fun _ => [1%R]) (fun i => [col_point p m U nnp i]))
        (fun i _ => CB (col_span p m U nnp i) (col_point p m U nnp i) p d U)
        (fun s => if s =? 0 then U p else U (n+1))
        (fun s => if s =? 0 then CB p (U p) p d U else CB n (U (n+1)) p d U))).
  (** src/petiga.c:1123-1126, 1478-1486: direction i of IGASetUp; the directions i >= dim get the unit axis (one node). *)
  Definition setup_colloc (dim i : Z) (bspline : bool) (p m : Z) (U : Z -> R) (nnp : Z) : status * option btable :=
    if i <? dim then init_collocation bspline p m U nnp else init_collocation bspline 0 1 unit_knots 1.
End Table.

(** * Layout *)
Section Layout.
  Variable g2 : Z -> Z -> Z -> Z.
  Variable g3 : Z -> Z -> Z -> Z -> Z.
  Variable maxint : Z.

  (** src/petiga.c:1127-1150, 1206-1292: elements are nodes, distributed evenly; the ranges of nodes and of control
      points.  [None] of colloc_node_range (a span search that does not end) never occurs. *)
  Definition col_layout_of (dim : Z) (axes : Z -> axis Rord) (n c : list Z) : layout :=
    let procs := pad 1 n in let coord := pad 0 c in
    let esz := fun i => if i <? dim then ax_nnp (axes i) else 1 in
    let est := fun i => if i <? dim then dist_s (procs i) (esz i) (coord i) else 0 in
    let ewd := fun i => if i <? dim then dist_n (procs i) (esz i) (coord i) else 1 in
    let nd := fun i => match colloc_node_range (axes i) (esz i) (est i) (ewd i) with
                       | Some (_, r) => r | None => mk_range 0 0 0 0 0 end in
    mk_layout procs coord esz est ewd
      (fun i => if i <? dim then colloc_geom_range (axes i) (procs i) (coord i) (col_shift (ax_p (axes i)) (ax_m (axes i)) (esz i)) (nd i)
                else unit_range)
      (fun i => if i <? dim then nd i else unit_range).
  Definition col_stage1 (size rank dim : Z) (axes : Z -> axis Rord) (user : list Z) : status * option layout :=
    let N := map (fun i => ax_nnp (axes i)) (zseq 0 dim) in
    match partition g2 g3 maxint size rank N user with
    | (Ok, n, c) => (Ok, Some (col_layout_of dim axes n c))
    | (st, _, _) => (st, None)
    end.
End Layout.

(** * Element *)
(** src/petigaelem.c:613-617 IGAElementEndPoint: after the points of a boundary form in collocation *)
Definition end_point (e : elem) : elem := if el_atb e then el_set_b e (2 * el_dim e) false else e.
(** [while (IGAElementNextForm(element,visit)) { BeginPoint; while (NextPoint) ...; EndPoint }] *)
Fixpoint col_form_loop (fuel : nat) (visit : Z -> Z -> bool) (e : elem) : option (list form_visit * elem) :=
  match fuel with
  | 0%nat => None
  | S f =>
      match next_form visit e with
      | (true, e1) => match col_form_loop f visit (end_point e1) with
                      | Some (l, e2) => Some (form_of e1 :: l, e2)
                      | None => None
                      end
      | (false, e1) => Some ([], e1)
      end
  end.

(** basis->offset[ID[i]] and basis->nen *)
Definition col_off (BT : Z -> btable) (e : triple) (i : Z) : Z := bq_offset (bt_q (BT i)) (coord e i).
Definition col_nen (BT : Z -> btable) (i : Z) : Z := bq_nen (bt_q (BT i)).
(** src/petigaelem.c:721-726: element->rowmap[0]; [gst], [gwd] are node_gstart and node_gwidth *)
Definition row_map (gst gwd : Z -> Z) (e : triple) : Z :=
  let '(i, j, k) := e in (i - gst 0) + (j - gst 1) * gwd 0 + (k - gst 2) * (gwd 0 * gwd 1).

(** src/petigaio.c:250-265 (geometryX, rationalW) and 720-740 (propertyA): what the process's array holds at position x
    after loading: the control points of the box geom_gstart, geom_gwidth, first direction fastest. *)
Definition control_array {A} (X : triple -> A) (gst gwd : Z -> Z) (x : Z) : A := X (tadd gst (unlin gwd x)).
(** src/petigaelem.c:728-753: the element's copy, read through element->mapping *)
Definition read_control {A} (mapping : list Z) (array : Z -> A) : list A := map array mapping.

(** ** Points *)
(** src/petigaelem.c:1013-1030: in collocation detJac is not multiplied by detX or detS *)
Definition col_JW (dim : Z) (BT : Z -> btable) (e : triple) (f : form_visit) (q : Z) : R :=
  (tab_detJ dim BT e f q * tab_weight dim BT e f q)%R.

(** * Boundary conditions *)
(** src/petigaelem.c:1415-1420, 1430-1435: "for (j<N) K[c*N+j] = 0; for (a<nen) K[c*N+a*dof+c] = row[a]; F[c] = v" *)
Definition set_row (dof nen : Z) (row : Z -> R) (cv : Z * R) (KF : (Z -> R) * (Z -> R)) : (Z -> R) * (Z -> R) :=
  let N := nen * dof in let c := fst cv in
  let K := BCModel.loop N (fun j K => upd K (c*N + j) 0%R) (fst KF) in
  let K := BCModel.loop nen (fun a K => upd K (c*N + a*dof + c) (row a)) K in
  (K, upd (snd KF) c (snd cv)).
(** src/petigaelem.c:1255-1260 DOT *)
Definition dot (dim : Z) (a b : Z -> R) : R := fold_left (fun s i => s + a i * b i)%R (zseq 0 dim) 0%R.
(** src/petigaelem.c:1391-1438 IGAElementFixSystem, collocation; [shape] is element->basis[0], [dshape a i] the first
    derivatives and [normal dir side i] the outward normal. *)
Definition col_fix_system (dim dof nen : Z) (sizes ID : Z -> Z) (value load : Z -> Z -> list (Z * R))
    (shape : Z -> R) (dshape : Z -> Z -> R) (normal : Z -> Z -> Z -> R) (KF : (Z -> R) * (Z -> R)) : (Z -> R) * (Z -> R) :=
  fold_left (fun KF ds =>
    let '(dir, side) := ds in
    if ID dir =? (if side =? 0 then 0 else sizes dir - 1) then
      let KF := fold_left (fun KF cv => set_row dof nen (fun a => dot dim (dshape a) (normal dir side)) cv KF) (load dir side) KF in
      fold_left (fun KF cv => set_row dof nen shape cv KF) (value dir side) KF
    else KF)
  (flat_map (fun d => [(d, 0); (d, 1)]) (zseq 0 dim)) KF.
(** src/petigaelem.c:1403-1405: the normal without a geometry *)
Definition axis_normal (dir side i : Z) : R := if i =? dir then (if side =? 0 then (-1)%R else 1%R) else 0%R.

(** src/petigaelem.c:1464-1480 IGAElementFixFunction, collocation; [rowmap] = rowmap[0], [colmap] = mapping *)
Definition col_fix_function (dof rowmap : Z) (colmap : Z -> Z) (fix_ : list (Z * R)) (ufix : list R) (F : Z -> R) : Z -> R :=
  fold_left (fun F p =>
    let k := fst (fst p) in let a := Z.quot k dof in let c := Z.rem k dof in
    if rowmap =? colmap a then upd F c (snd p - snd (fst p))%R else F) (combine fix_ ufix) F.
(** src/petigaelem.c:1502-1522 IGAElementFixJacobian, collocation *)
Definition col_fix_jacobian (dof nen rowmap : Z) (colmap : Z -> Z) (fix_ : list (Z * R)) (shape : Z -> R) (J : Z -> R) : Z -> R :=
  fold_left (fun J e =>
    let k := fst e in let a := Z.quot k dof in let c := Z.rem k dof in
    if rowmap =? colmap a then
      let N := nen * dof in
      let J := BCModel.loop N (fun j J => upd J (c*N + j) 0%R) J in
      BCModel.loop nen (fun i J => upd J (c*N + i*dof + c) (shape i)) J
    else J) fix_ J.

(** * Kernels *)
Section Kernels.
  Variable dim dof : Z.
  Variable nen : Z -> Z.
  Variable nnp : Z -> Z.                       (* element->sizes *)
  Variable off : triple -> Z -> Z.             (* basis->offset *)
  Variable periodic : Z -> bool.
  Variable visit : Z -> Z -> bool.
  Variable value load : Z -> Z -> list (Z * R).
  Variable fixtable : bool.
  Variable npts : triple -> form_visit -> Z.
  Variable JW : triple -> form_visit -> Z -> R.
  (** element->basis[0], the first derivatives and normals BuildTabulation left for the last form visited *)
  Variable shape : triple -> form_visit -> Z -> R.
  Variable dshape : triple -> form_visit -> Z -> Z -> R.
  Variable normal : triple -> form_visit -> Z -> Z -> Z -> R.
  (** node_gstart and node_gwidth of the process *)
  Variable gst gwd : Z -> Z.

  Definition col_forms (e : triple) : list form_visit :=
    match col_form_loop (Z.to_nat (2 * dim + 3)) visit (mk_elem dim (fun _ => 0) (fun _ => 1) nnp 0 0 (coord e) (-1) false) with
    | Some (l, _) => l | None => []
    end.
  Definition last_form (e : triple) : form_visit := last (col_forms e) Interior.
  (** as DrvModel.accumulate, with the forms of a collocation point *)
  Definition col_accumulate (m : Z) (e : triple) (cb : form_visit -> Z -> (Z -> R) -> Z -> R) : Z -> R :=
    fold_left (fun A f => fold_left (fun A q => point_add_array m (JW e f q) (cb f q work) A) (visit_points npts e f) A)
              (col_forms e) work.
  (** neq = 1 (src/petigaelem.c:204): dof rows of nen*dof columns *)
  Definition col_nvec : Z := dof.
  Definition col_nmat : Z := dof * (vol nen * dof).
  Definition colmap (e : triple) (a : Z) : Z := nth (Z.to_nat a) (closure (off e) nen gst gwd) 0.
  Definition col_fix (e : triple) (ins : list (list R)) : list (Z * R) :=
    build_fix_colloc dof (table_of fixtable ins) (fun a => a) nen value dim periodic nnp (off e).

  (** src/petigaksp.c:33-77 IGAComputeVector *)
  Definition c_vector (Vector : cb0) (e : triple) (ins : list (list R)) : Z -> R :=
    col_accumulate col_nvec e (fun f q F => Vector e f q F).
  (** src/petigaksp.c:79-123 IGAComputeMatrix *)
  Definition c_matrix (Matrix : cb0) (e : triple) (ins : list (list R)) : Z -> R :=
    col_accumulate col_nmat e (fun f q K => Matrix e f q K).
  (** src/petigaksp.c:151-202 IGAComputeSystem *)
  Definition c_system (SysK SysF : cb0) (e : triple) (ins : list (list R)) : (Z -> R) * (Z -> R) :=
    let A := col_accumulate col_nmat e (fun f q K => SysK e f q K) in
    let B := col_accumulate col_nvec e (fun f q F => SysF e f q F) in
    col_fix_system dim dof (vol nen) nnp (coord e) value load (shape e (last_form e)) (dshape e (last_form e))
      (normal e (last_form e)) (A, B).
  (** src/petigasnes.c:23-80 IGAComputeFunction; inputs U *)
  Definition c_function (Function : cb1) (e : triple) (ins : list (list R)) : Z -> R :=
    let '(ufix, U) := fix_values (col_fix e ins) (input fixtable 0 ins) in
    let F := col_accumulate col_nvec e (fun f q R => Function e f q U R) in
    col_fix_function dof (row_map gst gwd e) (colmap e) (col_fix e ins) ufix F.
  (** src/petigasnes.c:82-139 IGAComputeJacobian; inputs U *)
  Definition c_jacobian (Jacobian : cb1) (e : triple) (ins : list (list R)) : Z -> R :=
    let '(ufix, U) := fix_values (col_fix e ins) (input fixtable 0 ins) in
    let J := col_accumulate col_nmat e (fun f q K => Jacobian e f q U K) in
    col_fix_jacobian dof (vol nen) (row_map gst gwd e) (colmap e) (col_fix e ins) (shape e (last_form e)) J.
End Kernels.

(** * Assembly *)
Section Assembly.
  Variable size : Z.
  Variable G : Z -> grid.
  Variable dof : Z.
  Variable elems : Z -> list triple.
  Variable mapping : Z -> triple -> list Z.   (* element->mapping = colmap *)
  Variable rowmap : Z -> triple -> Z.         (* element->rowmap[0] *)
  Variable Fe Ke : Z -> triple -> list (list R) -> Z -> R.   (* the kernels as run by rank r *)
  Variable inputs : list (Z -> R).
  Variable L0 : Z -> Z -> R.

  (** src/petigaelem.c:1525-1540 IGAElementAssembleVec, neq = 1 *)
  Definition col_vec_entries (r : Z) (e : triple) : list (Z * R) :=
    map (fun c => (dof * lgmap size G r (rowmap r e) + c, Fe r e (elem_inputs size G dof mapping inputs L0 r e) c)) (zseq 0 dof).
  (** src/petigaelem.c:1542-1559 IGAElementAssembleMat, neq = 1 *)
  Definition col_mat_entries (r : Z) (e : triple) : list (Z * Z * R) :=
    let nen := Z.of_nat (length (mapping r e)) in
    flat_map (fun c => flat_map (fun q => map (fun d =>
        (dof * lgmap size G r (rowmap r e) + c, dof * lgmap size G r (snd q) + d,
         Ke r e (elem_inputs size G dof mapping inputs L0 r e) (c * (nen * dof) + (fst q * dof + d))))
        (zseq 0 dof)) (combine (zseq 0 nen) (mapping r e))) (zseq 0 dof).
  Definition col_compute_vector (order : list Z) : Z -> R :=
    fold_left (fun V r => fold_left (fun V e => add_entries (col_vec_entries r e) V) (elems r) V) order (fun _ => 0%R).
  Definition col_compute_matrix (order : list Z) : Z -> Z -> R :=
    fold_left (fun M r => fold_left (fun M e => add_entries2 (col_mat_entries r e) M) (elems r) M) order (fun _ _ => 0%R).
End Assembly.

(** * Nonzero structure of the matrix *)
Section Pattern.
  Variable dim : Z.
  Variable BT : Z -> btable.
  (** src/petigamat.c:206-209 Stencil, collocation: basis[dir]->offset[i], and p more (nen = p+1); directions >= dim as in
      MatModel.dir_stencil *)
  Definition col_stencil (d i : Z) : Z * Z :=
    if d <? dim then let k := bq_offset (bt_q (BT d)) i in (k, k + (bq_nen (bt_q (BT d)) - 1)) else (0, 0).
  (** src/petigamat.c:243-267 ColumnIndices *)
  Definition col_cfirst (start : Z -> Z) (A : triple) (d : Z) : Z :=
    if d <? dim then Z.max (fst (col_stencil d (coord_of A d))) (start d) else 0.
  Definition col_clast (start shape : Z -> Z) (A : triple) (d : Z) : Z :=
    if d <? dim then Z.min (snd (col_stencil d (coord_of A d))) (start d + shape d - 1) else 0.
  Definition col_column_indices (start shape : Z -> Z) (A : triple) : list Z :=
    map (index3d start shape) (box (col_cfirst start A) (fun d => col_clast start shape A d - col_cfirst start A d + 1)).
  (** src/petigamat.c:411-418 gstart[], gwidth[]; 419-428 the auxiliary grid *)
  Definition col_mat_gstart (lstart : Z -> Z) (d : Z) : Z := if d <? dim then fst (col_stencil d (lstart d)) else 0.
  Definition col_mat_gwidth (lstart lwidth : Z -> Z) (d : Z) : Z :=
    if d <? dim then snd (col_stencil d (lstart d + lwidth d - 1)) + 1 - col_mat_gstart lstart d else 1.
  Definition col_mat_grid (g : grid) : grid :=
    mk_grid 1 (gr_sizes g) (gr_lstart g) (gr_lwidth g)
            (col_mat_gstart (gr_lstart g)) (col_mat_gwidth (gr_lstart g) (gr_lwidth g)).
  Variable size : Z.
  Variable G : Z -> grid.
  (** src/petigamat.c:424-425 ltog; 461-463, 508-510 one row; 498-533 the locations set to zero by rank r *)
  Definition col_mat_ltog (r k : Z) : Z := ao size G (nth (Z.to_nat k) (ghost_indices (col_mat_grid (G r))) (-1)).
  Definition col_mat_row (r : Z) (t : triple) : Z :=
    let g := col_mat_grid (G r) in col_mat_ltog r (index3d (gr_gstart g) (gr_gwidth g) t).
  Definition col_mat_cols (r : Z) (t : triple) : list Z :=
    let g := col_mat_grid (G r) in map (col_mat_ltog r) (col_column_indices (gr_gstart g) (gr_gwidth g) t).
  Definition col_mat_pattern (bs r : Z) : list (Z * Z) :=
    filter (fun p => (0 <=? fst p) && (0 <=? snd p))
      (flat_map (fun t => list_prod (unblock bs [col_mat_row r t]) (unblock bs (col_mat_cols r t)))
                (box (gr_lstart (G r)) (gr_lwidth (G r)))).
  (** src/petigamat.c:429-436 MATIS: rows are all nodes of the ghosted box; these are the positions at which Stencil reads
      basis[d]->offset, an array of [bq_nel] entries *)
  Definition col_is_reads (g : grid) (d : Z) : list Z := zseq (gr_gstart g d) (gr_gwidth g d).
  Definition col_is_pattern (g : grid) (bs : Z) : list (Z * Z) :=
    flat_map (fun t => list_prod (unblock bs [index3d (gr_gstart g) (gr_gwidth g) t])
                                 (unblock bs (col_column_indices (gr_gstart g) (gr_gwidth g) t)))
             (box (gr_gstart g) (gr_gwidth g)).
End Pattern.
