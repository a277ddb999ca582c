(** The information IGAPreparePCBDDC hands to PETSc's balancing domain decomposition preconditioner
    (src/petigapcbddc.c): adjacency graph of the local degrees of freedom, primal vertices, Dirichlet and Neumann
    boundary degrees of freedom. Not modelled: the options that switch the parts on and off, the "minimal" change of
    near null space (lines 310-432), the creation of the PETSc objects. PetscSortInt is an argument [sort]. *)
From Coq Require Import ZArith List Bool.
From Verif Require Import Prelude Box RealOrd AxisModel AxisInitModel SetupModel.
Import ListNotations.
Open Scope Z_scope.

(** src/petigapcbddc.c:21-25 Index *)
Definition bd_index (N : Z -> Z) (i j k : Z) : Z := i + j * N 0 + k * N 0 * N 1.

(** src/petigapcbddc.c:27-38 OnGrid: None is PETSC_FALSE, Some the updated indices. *)
Definition on_grid (W : Z -> bool) (N : Z -> Z) (t : triple) : option triple :=
  let '(i, j, k) := t in
  let i := if W 0 then (if i <? 0 then i + N 0 else if N 0 <=? i then i - N 0 else i) else i in
  let j := if W 1 then (if j <? 0 then j + N 1 else if N 1 <=? j then j - N 1 else j) else j in
  let k := if W 2 then (if k <? 0 then k + N 2 else if N 2 <=? k then k - N 2 else k) else k in
  if (i <? 0) || (N 0 <=? i) then None else
  if (j <? 0) || (N 1 <=? j) then None else
  if (k <? 0) || (N 2 <=? k) then None else Some (i, j, k).

(** src/petigapcbddc.c:40-56 Color *)
Definition color (shape start width : Z -> Z) (t : triple) : Z :=
  let '(i, j, k) := t in
  let layer d x := let L := start d in let R := start d + width d - 1 in
    let r := if x <? L then x - L else 0 in if R <? x then x - R else r in
  bd_index (fun d => shape d - width d + 1) (layer 0 i) (layer 1 j) (layer 2 k).

(** src/petigapcbddc.c:58-65 STENCIL *)
Definition stencil7 : list triple :=
  [(0, 0, -1); (0, -1, 0); (-1, 0, 0); (0, 0, 0); (1, 0, 0); (0, 1, 0); (0, 0, 1)].

Section Graph.
  Variable sort : list Z -> list Z.
  Variable bs : Z.
  Variable wrap : Z -> bool.
  Variable shape start width : Z -> Z.

  (** src/petigapcbddc.c:88-97 and 111-124: the neighbours of the same colour, in stencil order. *)
  Definition vertices (t : triple) : list Z :=
    let '(i, j, k) := t in
    flat_map (fun s => let '(a, b, c) := s in
      match on_grid wrap shape (i + a, j + b, k + c) with
      | Some (ii, jj, kk) => if color shape start width (ii, jj, kk) =? color shape start width t
                             then [bd_index shape ii jj kk] else []
      | None => []
      end) stencil7.

  Definition grid_nodes : list triple := box zero3 shape.

  (** src/petigapcbddc.c:84-101: nvtx and nadj, the lengths of the arrays allocated at 102-103. *)
  Definition graph_nvtx : Z := shape 0 * shape 1 * shape 2 * bs.
  Definition graph_nadj : Z :=
    fold_left (fun n t => n + Z.of_nat (length (vertices t))) grid_nodes 0 * (bs * bs).

  (** The state of the filling loops: pos, xadj, adjy. *)
  Definition csr : Type := (Z * (Z -> Z) * (Z -> Z))%type.

  (** src/petigapcbddc.c:132 adjy[xadj[pos]++] = c2 + bs*vertices[v] *)
  Definition push (y : Z) (st : csr) : csr :=
    let '(pos, xadj, adjy) := st in (pos, upd xadj pos (xadj pos + 1), upd adjy (xadj pos) y).

  (** src/petigapcbddc.c:127-134: one component c of the node with the vertex list vs. *)
  Definition fill_comp (vs : list Z) (st : csr) : csr :=
    let '(pos, xadj, adjy) := st in
    let st := (pos, upd xadj pos (xadj (pos - 1)), adjy) in
    let st := fold_left (fun st v => fold_left (fun st c2 => push (c2 + bs * v) st) (zseq 0 bs) st) vs st in
    let '(pos, xadj, adjy) := st in (pos + 1, xadj, adjy).

  (** src/petigapcbddc.c:106-135 *)
  Definition graph_fill (xadj0 adjy0 : Z -> Z) : csr :=
    fold_left (fun st t => let vs := sort (vertices t) in fold_left (fun st _ => fill_comp vs st) (zseq 0 bs) st)
      grid_nodes (1, upd xadj0 0 0, adjy0).

  (** What IGAComputeBDDCGraph returns; xadj0 and adjy0 are the contents of the freshly allocated memory. *)
  Definition bddc_graph (xadj0 adjy0 : Z -> Z) : Z * (Z -> Z) * (Z -> Z) :=
    let '(_, xadj, adjy) := graph_fill xadj0 adjy0 in (graph_nvtx, xadj, adjy).
End Graph.

(** src/petigapcbddc.c:238-257: the arguments of IGAComputeBDDCGraph on the process with layout ly. *)
Definition graph_args {O : KnotOrd} (dim : Z) (axes : Z -> axis O) (ly : layout) : (Z -> bool) * (Z -> Z) * (Z -> Z) * (Z -> Z) :=
  let n d := ly_node ly d in
  (fun d => if d <? dim then (if 1 <? ly_procs ly d then false else ax_periodic (axes d)) else false,
   fun d => if d <? dim then r_gwidth (n d) else 1,
   fun d => if d <? dim then (if 1 <? ly_procs ly d then r_lstart (n d) - r_gstart (n d) else r_gstart (n d)) else 0,
   fun d => if d <? dim then (if 1 <? ly_procs ly d then r_lwidth (n d) else r_gwidth (n d)) else 1).

(** * Primal vertices *)
(** src/petigapcbddc.c:262-303: the list ip before it is sorted. Directions at and above dim have the layout's
    unit range, so shape is 1 there. *)
Definition primal_vertices (dim : Z) (periodic : Z -> bool) (ly : layout) : list Z :=
  let wrap d := (d <? dim) && periodic d in
  let shape d := r_gwidth (ly_node ly d) in
  let corner d := if d <? dim then
    let n := ly_node ly d in
    let lend := r_lstart n + r_lwidth n in let gend := r_gstart n + r_gwidth n in
    r_gwidth n - Z.quot (gend - lend) 2 - 1 else 0 in
  let vertex i j k :=
    let v := bd_index shape (if i =? 0 then 0 else corner 0) (if j =? 0 then 0 else corner 1) (if k =? 0 then 0 else corner 2) in
    let v := if (dim <? 3) && (k =? 1) then -1 else v in
    let v := if (dim <? 2) && (j =? 1) && (k =? 0) then -1 else v in
    let v := if ((0 <? ly_coord ly 0) || wrap 0) && (i =? 0) then -1 else v in
    let v := if ((0 <? ly_coord ly 1) || wrap 1) && (j =? 0) then -1 else v in
    if ((0 <? ly_coord ly 2) || wrap 2) && (k =? 0) then -1 else v in
  filter (fun v => 0 <=? v)
    (flat_map (fun i => flat_map (fun j => map (fun k => vertex i j k) (zseq 0 2)) (zseq 0 2)) (zseq 0 2)).

(** * Boundary degrees of freedom *)
Section Boundary.
  Variable dim bs : Z.
  Variable shape : Z -> Z.
  Variable atbnd : Z -> Z -> bool.
  Variable field : Z -> Z -> list Z.

  (** Dmask, ndirichlet, Nmask, nneumann *)
  Definition masks : Type := ((Z -> bool) * Z * (Z -> bool) * Z)%type.

  (** src/petigapcbddc.c:176-178 *)
  Definition mark_dirichlet (i : Z) (st : masks) : masks :=
    let '(D, nd, N, nn) := st in
    (upd D i true, if D i then nd else nd + 1, upd N i false, if N i then nn - 1 else nn).

  (** src/petigapcbddc.c:181-183 *)
  Definition mark_neumann (i : Z) (st : masks) : masks :=
    let '(D, nd, N, nn) := st in
    if D i then st else (D, nd, upd N i true, if N i then nn else nn + 1).

  (** src/petigapcbddc.c:169-185 for one node, [index] its running number. *)
  Definition mark_node (t : triple) (index : Z) (st : masks) : masks :=
    let '(i, j, k) := t in
    let ijk d := if d =? 0 then i else if d =? 1 then j else k in
    fold_left (fun st dir => fold_left (fun st side =>
      if atbnd dir side && (ijk dir =? (if side =? 0 then 0 else shape dir - 1)) then
        let st := fold_left (fun st f => mark_dirichlet (f + bs * index) st) (field dir side) st in
        fold_left (fun st c => mark_neumann (c + bs * index) st) (zseq 0 bs) st
      else st) (zseq 0 2) st) (zseq 0 dim) st.

  (** src/petigapcbddc.c:163-185; PetscBTCreate clears the masks. *)
  Definition mark_all : masks :=
    fst (fold_left (fun s t => (mark_node t (snd s) (fst s), snd s + 1)) (box zero3 shape)
           ((fun _ => false, 0, fun _ => false, 0), 0)).

  (** src/petigapcbddc.c:187-197: the counts (also the allocated lengths) and the lists written. *)
  Definition bddc_boundary : (Z * list Z) * (Z * list Z) :=
    let m := bs * shape 0 * shape 1 * shape 2 in
    let '(D, nd, N, nn) := mark_all in
    ((nd, filter D (zseq 0 m)), (nn, filter N (zseq 0 m))).
End Boundary.

(** src/petigapcbddc.c:434-457: the arguments of IGAComputeBDDCBoundary; value d s is the list of (component, value)
    pairs of iga->form->value[d][s]. *)
Definition boundary_args {O : KnotOrd} {V : Type} (dim : Z) (axes : Z -> axis O) (value : Z -> Z -> list (Z * V)) (ly : layout) :
    (Z -> Z) * (Z -> Z -> bool) * (Z -> Z -> list Z) :=
  let at_ d s := (d <? dim) && negb (ax_periodic (axes d)) && (ly_coord ly d =? (if s =? 0 then 0 else ly_procs ly d - 1)) in
  (fun d => if d <? dim then r_gwidth (ly_node ly d) else 1, at_, fun d s => if at_ d s then map fst (value d s) else []).
