(** Model of the nonzero structure built by IGACreateMat (src/petigamat.c).  Definitions only.
    Row and column indices are block indices (one block per node) until [unblock]. *)
From Coq Require Import ZArith List Bool.
From Verif Require Import Prelude AxisModel SetupModel Box GridModel.
Import ListNotations.
Open Scope Z_scope.

Definition coord_of (t : triple) (d : Z) : Z := let '(i, j, k) := t in if d =? 0 then i else if d =? 1 then j else k.

Section Mat.
  Context {O : KnotOrd}.
  Variable dim : Z.
  Variable axes : Z -> axis O.

  (** src/petigamat.c:197-233 Stencil(iga,dir,i), quadrature; directions dir >= dim are never asked for
      and behave as first = last = 0 (lines 248-249). *)
  Definition dir_stencil (d i : Z) : Z * Z :=
    if d <? dim then stencil (ax_periodic (axes d)) (ax_p (axes d)) (ax_m (axes d)) (ax_U (axes d)) i else (0, 0).

  (** src/petigamat.c:235-241 Index3D *)
  Definition index3d (start shape : Z -> Z) (t : triple) : Z :=
    let '(i, j, k) := t in
    (i - start 0) + (j - start 1) * shape 0 + (k - start 2) * shape 0 * shape 1.

  (** src/petigamat.c:248-258 first[], last[] of ColumnIndices *)
  Definition col_first (start : Z -> Z) (A : triple) (d : Z) : Z :=
    if d <? dim then Z.max (fst (dir_stencil d (coord_of A d))) (start d) else 0.
  Definition col_last (start shape : Z -> Z) (A : triple) (d : Z) : Z :=
    if d <? dim then Z.min (snd (dir_stencil d (coord_of A d))) (start d + shape d - 1) else 0.

  (** src/petigamat.c:243-267 ColumnIndices: the entries written to stencil[], in order *)
  Definition column_indices (start shape : Z -> Z) (A : triple) : list Z :=
    map (index3d start shape)
        (box (col_first start A) (fun d => col_last start shape A d - col_first start A d + 1)).

  (** src/petigamat.c:442-444 size of the buffer passed as stencil[] *)
  Definition maxnnz : Z := fold_left (fun nnz d => nnz * (2 * ax_p (axes d) + 1)) (zseq 0 dim) 1.

  (** src/petigamat.c:411-418 gstart[], gwidth[] of a rank owning rows [lstart], [lwidth] *)
  Definition mat_gstart (lstart : Z -> Z) (d : Z) : Z := if d <? dim then fst (dir_stencil d (lstart d)) else 0.
  Definition mat_gwidth (lstart lwidth : Z -> Z) (d : Z) : Z :=
    if d <? dim then snd (dir_stencil d (lstart d + lwidth d - 1)) + 1 - mat_gstart lstart d else 1.

  (** src/petigamat.c:419-428 the auxiliary grid: same rows, the stencil's columns *)
  Definition mat_grid (g : grid) : grid :=
    mk_grid 1 (gr_sizes g) (gr_lstart g) (gr_lwidth g)
            (mat_gstart (gr_lstart g)) (mat_gwidth (gr_lstart g) (gr_lwidth g)).

  Section World.
    Variable size : Z.
    Variable G : Z -> grid.

    (** src/petigamat.c:424-425 ltog: IGA_Grid_SetAO(grid,iga->ao), IGA_Grid_GetLGMap *)
    Definition mat_ltog (r k : Z) : Z := ao size G (nth (Z.to_nat k) (ghost_indices (mat_grid (G r))) (-1)).

    (** src/petigamat.c:461-463, 508-510 one row: the row index and the columns after L2GApplyBlock *)
    Definition mat_row (r : Z) (t : triple) : Z :=
      let g := mat_grid (G r) in mat_ltog r (index3d (gr_gstart g) (gr_gwidth g) t).
    Definition mat_cols (r : Z) (t : triple) : list Z :=
      let g := mat_grid (G r) in map (mat_ltog r) (column_indices (gr_gstart g) (gr_gwidth g) t).

    (** src/petigamat.c:302-314 UnblockIndices *)
    Definition unblock (bs : Z) (l : list Z) : list Z := flat_map (fun n => map (fun c => c + n * bs) (zseq 0 bs)) l.

    (** src/petigamat.c:498-533 the locations set to zero by rank r (MATAIJ; with bs=1 the unblocked
        indices are the indices themselves).  MatSetValues ignores negative indices. *)
    Definition mat_pattern (bs r : Z) : list (Z * Z) :=
      filter (fun p => (0 <=? fst p) && (0 <=? snd p))
        (flat_map (fun t => list_prod (unblock bs [mat_row r t]) (unblock bs (mat_cols r t)))
                  (box (gr_lstart (G r)) (gr_lwidth (G r)))).

    (** src/petigamat.c:464-469 MatPreallocateSet of one (unblocked) row: columns inside the rank's own
        range [lo, hi) are counted in dnz, all others in onz; 477-484 both are clipped when the whole
        matrix has fewer than maxnnz block columns ([N], [n]: global and local number of blocks). *)
    Definition prealloc (bs n N lo hi : Z) (cols : list Z) : Z * Z :=
      let inside := fun c => (lo <=? c) && (c <? hi) in
      let dnz := Z.of_nat (length (filter inside cols)) in
      let onz := Z.of_nat (length (filter (fun c => negb (inside c)) cols)) in
      if N <? maxnnz then (Z.min dnz (n * bs), Z.min onz (N * bs - n * bs)) else (dnz, onz).
  End World.
End Mat.

(** MATIS: src/petigamat.c:429-436 rows and columns are the nodes of the rank's ghosted box, numbered
    locally (no ltog). *)
Section MatIS.
  Context {O : KnotOrd}.
  Variable dim : Z.
  Variable axes : Z -> axis O.
  Definition is_pattern (g : grid) (bs : Z) : list (Z * Z) :=
    flat_map (fun t => list_prod (unblock bs [index3d (gr_gstart g) (gr_gwidth g) t])
                                 (unblock bs (column_indices dim axes (gr_gstart g) (gr_gwidth g) t)))
             (box (gr_gstart g) (gr_gwidth g)).
End MatIS.
