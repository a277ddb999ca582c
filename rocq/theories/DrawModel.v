(** Model of the sampling of fields for visualisation (src/petigadraw.c).  Definitions only.
    The DMDA is described by the ranges the ranks pass to it; viewers are not modelled. *)
From Coq Require Import ZArith List Bool Reals.
From Verif Require Import Prelude RealOrd Box AxisModel SetupModel ElemSpec MapModel ProbeModel.
Import ListNotations.
Open Scope Z_scope.

(** src/petigadraw.c:10-15 GrevillePoint *)
Definition greville_point (index : Z) (a : axis Rord) : R :=
  if ax_p a =? 0 then 0%R else greville index (ax_p a) (ax_U a).

(** src/petigadraw.c:17-32 LagrangePoint; index is never negative, so / and % are those of Z. *)
Definition lagrange_point (index step : Z) (a : axis Rord) : R :=
  if ax_p a =? 0 then 0%R
  else let e := index / step in
       let i := index mod step in
       let '(e, i) := if e =? ax_nel a then (e - 1, step) else (e, i) in
       let u0 := ax_U a (span_at a e) in
       let u1 := ax_U a (span_at a e + 1) in
       (u0 + IZR i / IZR step * (u1 - u0))%R.

(** src/petigadraw.c:62-63; PETSC_DECIDE is -1. *)
Definition draw_resolution (dim : Z) (axes : Z -> axis Rord) (res : option (Z -> Z)) (i : Z) : Z :=
  if i <? dim
  then Z.max (match res with
              | Some f => if f i =? -1 then ax_p (axes i) else f i
              | None => ax_p (axes i)
              end) 1
  else 1.

Section Draw.
  Variable E : penv.
  Variable size : Z.
  Variable LY : Z -> layout.
  Variable res : Z -> Z.
  Let dim := pe_dim E.
  Let axes := pe_axes E.

  (** src/petigadraw.c:65-71, quadrature mode *)
  Definition draw_sizes (d : Z) : Z := if d <? dim then ly_elem_size (LY 0) d * res d + 1 else 1.
  Definition draw_width (r d : Z) : Z :=
    if d <? dim
    then ly_elem_width (LY r) d * res d + (if ly_coord (LY r) d =? ly_procs (LY r) d - 1 then 1 else 0)
    else 1.

  (** src/petiga.c:901-934 IGACreateSubComms1D: the communicator of direction d on rank r has one rank for each
      coordinate c; MPI_Cart_create numbers the grid with direction 0 running fastest (the dimensions are passed in
      reverse order) and MPI_Cart_sub orders by the coordinate. *)
  Definition line_rank (r d c : Z) : Z :=
    r + (c - ly_coord (LY r) d) *
        (if d =? 0 then 1 else if d =? 1 then ly_procs (LY r) 0 else ly_procs (LY r) 0 * ly_procs (LY r) 1).
  (** src/petiga.c:975 MPI_Allgather of the widths *)
  Definition draw_ranges (r d : Z) : list Z := map (fun c => draw_width (line_rank r d c) d) (zseq 0 (ly_procs (LY r) d)).
  (** DMDAGetCorners: the DMDA numbers the processes in the same way, so that the box of rank r starts after the
      ranges of the smaller coordinates. *)
  Definition draw_start (r d : Z) : Z :=
    if d <? dim then fold_left Z.add (firstn (Z.to_nat (ly_coord (LY r) d)) (draw_ranges r d)) 0 else 0.

  (** src/petigadraw.c:100-118, 190-216: uvw for the grid point t; node_shift is zero in quadrature mode.  The axes
      dim..2 have been reset, their degree is zero. *)
  Definition draw_point (t : triple) (d : Z) : R := if d <? dim then lagrange_point (coord t d) (res d) (axes d) else 0%R.

  (** src/petigadraw.c:111-123, 202-217: the loop nest k, j, i with the position in the array advancing; [val] are the
      values taken from the probe at each point. *)
  Fixpoint draw_loop (r : Z) (val : probe -> list R) (pts : list triple) (q : probe) : list R :=
    match pts with
    | [] => []
    | t :: pts => let q := set_point_self E r (draw_point t) q in val q ++ draw_loop r val pts q
    end.

  (** src/petigaprobe.c:24-115 IGAProbeCreate with the local arrays L of a vector, followed by
      IGAProbeSetOrder(probe,0) and IGAProbeSetCollective(probe,PETSC_FALSE) (src/petigadraw.c:189-191). *)
  Definition draw_probe (order : Z) (L : Z -> Z -> R) : option (Z -> probe) :=
    match set_vec E size L (fun _ => probe_init E size order) with
    | Some St => Some (fun r => set_collective size false (snd (set_order 0 (St r))))
    | None => None
    end.
  (** src/petigadraw.c:157-226 IGADrawVec: the local arrays of the drawn vector; IGAProbeFormValue evaluates the value. *)
  Definition draw_vec (order : Z) (L : Z -> Z -> R) : option (Z -> list R) :=
    match draw_probe order L with
    | Some St => Some (fun r => draw_loop r (fun q => map (fun c => snd (evaluate E q 0) [] c) (zseq 0 (pe_dof E)))
                                          (box (draw_start r) (draw_width r)) (St r))
    | None => None
    end.
  (** src/petigadraw.c:38-127 IGACreateDrawDM: the local arrays of the coordinates; the probe has no vector. *)
  Definition draw_coords (order : Z) (r : Z) : list R :=
    draw_loop r (fun q => map (fun i => geom_map E q i) (zseq 0 (pe_nsd E)))
              (box (draw_start r) (draw_width r)) (set_collective size false (snd (set_order 0 (probe_init E size order)))).

  (** src/petigadraw.c:178-179: the resolution IGADrawVec recovers from the size of the draw grid *)
  Definition recovered_resolution (d : Z) : Z := if d <? dim then (draw_sizes d - 1) / ly_elem_size (LY 0) d else 1.
End Draw.

(** Collocation mode: src/petigadraw.c:72-77 (sizes and widths are those of the nodes), 100-118; [shift] is node_shift. *)
Definition draw_point_colloc (dim : Z) (axes : Z -> axis Rord) (shift : Z -> Z) (t : triple) (d : Z) : R :=
  if d <? dim then greville_point (coord t d + shift d) (axes d) else 0%R.
