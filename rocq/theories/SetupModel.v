(** Model of the index ranges computed by IGASetUp_Stage1 (src/petiga.c:1111-1310).  Definitions only. *)
From Coq Require Import ZArith List Bool Reals.
From Verif Require Import Prelude RealOrd AxisModel PartModel.
Import ListNotations.
Open Scope Z_scope.

(** One direction of a distributed grid as seen by one process:
    sizes, lstart, lwidth, gstart, gwidth. *)
Record range := mk_range { r_size : Z; r_lstart : Z; r_lwidth : Z; r_gstart : Z; r_gwidth : Z }.

Section Setup.
  Context {O : KnotOrd}.

  (** iga->axis[i]->span[e] *)
  Definition span_at (a : axis O) (e : Z) : Z :=
    match ax_span a with Some l => nth (Z.to_nat e) l 0 | None => 0 end.

  (** src/petiga.c:1154-1181 geometry partitioning (quadrature), one direction; [efirst] and
      [ewidth] are elem_start and elem_width, [nel] is elem_sizes. *)
  Definition geom_range (a : axis O) (nel efirst ewidth : Z) : range :=
    let elast := efirst + ewidth - 1 in
    let p := ax_p a in
    let size := span_at a (nel-1) + 1 in
    let gstart := span_at a efirst - p in
    let gend := span_at a elast + 1 in
    let lstart := span_at a efirst - p in
    let lend := if elast <? nel-1 then span_at a (elast+1) - p else span_at a elast + 1 in
    mk_range size lstart (lend - lstart) gstart (gend - gstart).

  (** src/petiga.c:1182-1203 node partitioning (quadrature), one direction. *)
  Definition node_range (a : axis O) (P r nel efirst ewidth : Z) : range :=
    let g := geom_range a nel efirst ewidth in
    let nnp := ax_nnp a in
    mk_range nnp (r_lstart g)
             (if r =? P-1 then nnp - r_lstart g else r_lwidth g)
             (r_gstart g) (r_gwidth g).
End Setup.

(** src/petigabasis.c:320-326 IGA_Greville *)
Definition greville (i p : Z) (U : Z -> R) : R :=
  if 0 <? p
  then (fold_left (fun u j => u + U (i+j+1)%Z)%R (zseq 0 p) 0 / IZR p)%R
  else ((U 0%Z + U 1%Z) / 2)%R.

(** src/petiga.c:1209-1244 node partitioning (collocation), one direction: node_shift and ranges. *)
Definition colloc_node_range (a : axis Rord) (nnp efirst ewidth : Z) : option (Z * range) :=
  let p := ax_p a in let m := ax_m a in let U := ax_U a in
  let n := m - p - 1 in
  let shift := (n + 1 - nnp) / 2 in
  match find_span (O:=Rord) n p (greville (efirst + shift) p U) U,
        find_span (O:=Rord) n p (greville (efirst + ewidth - 1 + shift) p U) U with
  | Some k1, Some k2 =>
      let gstart := (k1 - shift) - p in
      Some (shift, mk_range nnp efirst ewidth gstart ((k2 - shift) + 1 - gstart))
  | _, _ => None
  end.

(** src/petiga.c:1245-1273 geometry partitioning (collocation), one direction. *)
Definition colloc_geom_range (a : axis Rord) (P r shift : Z) (nd : range) : range :=
  let n := ax_m a - ax_p a - 1 in
  let size := n + 1 in
  let lstart := r_lstart nd + shift in
  let lwidth := r_lwidth nd in
  let gstart := r_gstart nd + shift in
  let gwidth := r_gwidth nd in
  let '(lstart, lwidth) := if r =? 0 then (lstart - shift, lwidth + shift) else (lstart, lwidth) in
  let '(lwidth, gwidth) := if r =? P-1 then (size - lstart, size - gstart) else (lwidth, gwidth) in
  mk_range size lstart lwidth gstart gwidth.

(** The ranges of directions i = dim..2, src/petiga.c:1277-1292. *)
Definition unit_range : range := mk_range 1 0 1 0 1.

(** src/petiga.c:1111-1310 for rank [rank] of [size], quadrature branch, after the axes have been set up:
    (status, per-direction element (start,width), node range, geometry range).  [axes] is
    iga->axis[0..2]; [user] is proc_sizes on entry (dim entries). *)
Section Stage1.
  Context {O : KnotOrd}.
  Variable g2 : Z -> Z -> Z -> Z.
  Variable g3 : Z -> Z -> Z -> Z -> Z.
  Variable maxint : Z.

  Record layout := mk_layout {
    ly_procs : Z -> Z; ly_coord : Z -> Z;
    ly_elem_size : Z -> Z; ly_elem_start : Z -> Z; ly_elem_width : Z -> Z;
    ly_geom : Z -> range; ly_node : Z -> range }.

  Definition pad (d : Z) (l : list Z) (i : Z) : Z := nth (Z.to_nat i) l d.

  Definition layout_of (dim : Z) (axes : Z -> axis O) (n c : list Z) : layout :=
    let procs := pad 1 n in let coord := pad 0 c in
    let esz := fun i => if i <? dim then ax_nel (axes i) else 1 in
    let est := fun i => if i <? dim then dist_s (procs i) (esz i) (coord i) else 0 in
    let ewd := fun i => if i <? dim then dist_n (procs i) (esz i) (coord i) else 1 in
    mk_layout procs coord esz est ewd
      (fun i => if i <? dim then geom_range (axes i) (esz i) (est i) (ewd i) else unit_range)
      (fun i => if i <? dim then node_range (axes i) (procs i) (coord i) (esz i) (est i) (ewd i)
                else unit_range).

  Definition stage1 (size rank dim : Z) (axes : Z -> axis O) (user : list Z) : status * option layout :=
    let N := map (fun i => ax_nel (axes i)) (zseq 0 dim) in
    match partition g2 g3 maxint size rank N user with
    | (Ok, n, c) => (Ok, Some (layout_of dim axes n c))
    | (st, _, _) => (st, None)
    end.
End Stage1.
