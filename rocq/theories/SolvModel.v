(** Model of index arithmetic used by solvers: IGAElementGetIndices (src/petigaelem.c), IGACreateCoordinates
    (src/petigansp.c), the field decompositions of DMIGA (src/petigadm.c) and the blocks of the basis-by-basis
    preconditioner (src/petigapcb.c).  Definitions only. *)
From Coq Require Import ZArith List Bool Reals.
From Verif Require Import Prelude RealOrd Box AxisModel SetupModel GridModel MatModel LagModel.
Import ListNotations.
Open Scope Z_scope.

(** * IGAElementGetIndices *)
(** src/petigaelem.c:674-689.  [rq] tells which of the four output arguments are not NULL; the outputs are
    variables of the caller holding [o] before the call. *)
Record indices (T : Type) := mk_indices { ix_neq : Z; ix_rowmap : T; ix_nen : Z; ix_colmap : T }.
Arguments mk_indices {T}. Arguments ix_neq {T}. Arguments ix_rowmap {T}. Arguments ix_nen {T}. Arguments ix_colmap {T}.
Record requests := mk_requests { rq_neq : bool; rq_rowmap : bool; rq_nen : bool; rq_colmap : bool }.
Definition get_indices {T} (el : indices T) (rq : requests) (o : indices T) : indices T :=
  let neq := if rq_neq rq then ix_neq el else ix_neq o in
  let colmap := if rq_colmap rq then ix_rowmap el else ix_colmap o in
  let nen := if rq_nen rq then ix_nen el else ix_nen o in
  let colmap := if rq_colmap rq then ix_colmap el else colmap in
  mk_indices neq (ix_rowmap o) nen colmap.

(** * IGACreateCoordinates *)
(** src/petigansp.c:47-48 *)
Definition clip (x lo hi : Z) : Z := if x <? lo then lo else if hi <? x then hi else x.
Definition coord_nsd (dim nsd : Z) : Z := clip nsd (clip dim 1 3) 3.

(** src/petigansp.c:61-87: the loop over the ghosted box, appending to the array; [xyz] is iga->geometryX. *)
Definition coords_geometry {T} (nsd : Z) (g : grid) (xyz : Z -> T) : list T :=
  let b := box (gr_gstart g) (gr_gwidth g) in
  flat_map (fun ti => if in_boxb (gr_lstart g) (gr_lwidth g) (fst ti)
                      then map (fun c => xyz (snd ti + c)) (zseq 0 nsd) else [])
           (combine b (zseq 0 (Z.of_nat (length b)))).

(** src/petigansp.c:11-29 ComputePoint; [spectral] tells whether btype is IGA_BASIS_SPECTRAL, [maxreal] is
    PETSC_MAX_REAL. *)
Definition compute_point (lit : Z -> R) (maxreal : R) (spectral : bool) (index : Z) (a : axis Rord) : R :=
  if ax_p a =? 0 then 0%R
  else if spectral then
    let p := ax_p a in
    let e := index / p in let i := index mod p in
    if 16 <? p then maxreal
    else let '(e, i) := if e =? ax_nel a then (e - 1, p) else (e, i) in
         lobatto_points lit (p+1) (ax_U a (span_at a e)) (ax_U a (span_at a e + 1)) i
  else greville index (ax_p a) (ax_U a).

(** src/petigansp.c:88-113: the loops over the owned box; [pt d i] is ComputePoint(i+shift[d],AX[d],BD[d]->type). *)
Definition coords_points {T} (nsd : Z) (g : grid) (pt : Z -> Z -> T) : list T :=
  flat_map (fun t => map (fun c => pt c (coord_of t c)) (zseq 0 nsd)) (box (gr_lstart g) (gr_lwidth g)).

(** * Field decompositions *)
(** src/petigadm.c:353-361 DMCreateFieldIS_IGA: [rs], [re] is the ownership range of the layout, [bs] its block
    size; ISCreateStride(n,first,step). *)
Definition is_stride (n first step : Z) : list Z := map (fun k => first + k*step) (zseq 0 n).
Definition field_is (bs rs re i : Z) : list Z :=
  let start := rs / bs in let end_ := re / bs in
  is_stride (end_ - start) (start + i) bs.
(** src/petigadm.c:309-320 DMCreateSubDM_IGA *)
Definition sub_is (bs rs re : Z) (fields : list Z) : list Z :=
  let start := rs / bs in let end_ := re / bs in
  flat_map (fun j => map (fun f => j*bs + f) fields) (zseq start (end_ - start)).

(** * Basis-by-basis preconditioner *)
(** src/petigapcb.c:140-147 *)
Definition bbb_overlap (p ov : Z) : Z := if ov <? 0 then p / 2 else Z.min ov p.
(** src/petigapcb.c:148-155, one direction: ghost_start, ghost_width. *)
Definition bbb_ghost (ov : Z) (nd : range) : Z * Z :=
  let gs := r_lstart nd - ov in
  let gw := r_lwidth nd + ov in
  let gs := if gs <? 0 then r_gstart nd else gs in
  let gw := if r_size nd <=? gs + gw then r_gwidth nd else gw in
  (gs, gw).
(** src/petigapcb.c:156-166: the grid of the preconditioner; in the unused directions overlap 0 and box [0,1). *)
Definition bbb_grid (dim : Z) (ov : Z -> Z) (nd : Z -> range) : grid :=
  mk_grid 1 (fun d => r_size (nd d)) (fun d => r_lstart (nd d)) (fun d => r_lwidth (nd d))
    (fun d => if d <? dim then fst (bbb_ghost (ov d) (nd d)) else 0)
    (fun d => if d <? dim then snd (bbb_ghost (ov d) (nd d)) else 1).
(** src/petigapcb.c:15-45 Index3D, ComputeOverlap: scalar indices of the block of node (iA,jA,kA). *)
Definition compute_overlap (lg : Z -> Z) (bs Astart Aend : Z) (gs gw ov : Z -> Z) (t : triple) : list Z :=
  let lo d := Z.max (coord_of t d - ov d) (gs d) in
  let hi d := Z.min (coord_of t d + ov d) (gs d + gw d - 1) in
  flat_map (fun i => flat_map (fun j => flat_map (fun k =>
    let Aglobal := lg ((i - gs 0) + (j - gs 1) * gw 0 + (k - gs 2) * gw 0 * gw 1) in
    if (Aglobal <? Astart) || (Aend <=? Aglobal) then [] else map (fun c => c + bs*Aglobal) (zseq 0 bs))
    (zseq (lo 2) (hi 2 - lo 2 + 1))) (zseq (lo 1) (hi 1 - lo 1 + 1))) (zseq (lo 0) (hi 0 - lo 0 + 1)).
(** src/petigapcb.c:161-166,199-201,218: the block of node t on rank r.  The map of the preconditioner's ghosted box uses
    the application ordering of the IGA (IGA_Grid_SetAO); the matrix rows are owned as the vector entries. *)
Definition bbb_block (size : Z) (G : Z -> grid) (dim dof : Z) (ov : Z -> Z) (nd : Z -> Z -> range) (r : Z) (t : triple) : list Z :=
  let g := bbb_grid dim ov (nd r) in
  let lg k := ao size G (nth (Z.to_nat k) (ghost_indices g) (-1)) in
  let rstart := (dof * off G r) / dof in let rend := (dof * off G (r+1)) / dof in
  compute_overlap lg dof rstart rend (gr_gstart g) (gr_gwidth g) (fun d => if d <? dim then ov d else 0) t.
(** src/petigapcb.c:203: length of the buffer [indices]. *)
Definition bbb_capacity (dim dof : Z) (ov : Z -> Z) : Z := fold_left (fun n i => n * (2*ov i + 1)) (zseq 0 dim) dof.
