(** Model of the block matrix formats (MATBAIJ, MATSBAIJ) built by IGACreateMat (src/petigamat.c).
    Definitions only.  The scalar format MATAIJ is in MatModel.v; the rows, columns and numbering are the
    ones defined there. *)
From Coq Require Import ZArith List Bool Reals.
From Verif Require Import Prelude AxisModel AxisInitModel SetupModel Box GridModel ElemModel MatModel.
Import ListNotations.
Open Scope Z_scope.

(** src/petigamat.c:317-327 FilterLowerTriangular: the loop compacts col[] in place; the result is the
    array and the new count. *)
Definition filter_lower (row cnt : Z) (col : Z -> Z) : (Z -> Z) * Z :=
  fold_left (fun s i => let (col, n) := (s : (Z -> Z) * Z) in
                        if row <=? col i then (upd col n (col i), n + 1) else (col, n))
            (zseq 0 cnt) (col, 0).

(** the first [n] entries of an array, as passed to MatPreallocate... and MatSetValuesBlocked *)
Definition entries (col : Z -> Z) (n : Z) : list Z := map col (zseq 0 n).
(** indices[] after the loop of ColumnIndices and L2GApplyBlock *)
Definition array_of (l : list Z) : Z -> Z := fun i => nth (Z.to_nat i) l 0.

Section Block.
  Context {O : KnotOrd}.
  Variable dim : Z.
  Variable axes : Z -> axis O.
  Variable size : Z.
  Variable G : Z -> grid.

  (** src/petigamat.c:473-478, 529-534 the block columns of one block row, for baij ([sym] = false: as
      they come) and sbaij ([sym] = true: after FilterLowerTriangular). *)
  Definition block_cols (sym : bool) (r : Z) (t : triple) : list Z :=
    let cols := mat_cols dim axes size G r t in
    if sym then let (col, n) := filter_lower (mat_row dim axes size G r t) (Z.of_nat (length cols)) (array_of cols)
                in entries col n
    else cols.

  (** src/petigamat.c:519-536 MatSetValuesBlocked(A,1,&row,count,indices,values,INSERT_VALUES) for every
      node of the rank: the blocks made part of the structure.  Negative indices are ignored. *)
  Definition block_pattern (sym : bool) (r : Z) : list (Z * Z) :=
    filter (fun p => (0 <=? fst p) && (0 <=? snd p))
      (flat_map (fun t => map (fun c => (mat_row dim axes size G r t, c)) (block_cols sym r t))
                (box (gr_lstart (G r)) (gr_lwidth (G r)))).

  (** MatPreallocateSymmetricSetBlock(row,nc,cols,dnz,onz), a PETSc macro (petscmat.h): columns at or
      beyond the end of the rank's range go to onz, the others from [row] on to dnz. *)
  Definition sym_counts (row hi : Z) (cols : list Z) : Z * Z :=
    fold_left (fun s c => let (dnz, onz) := (s : Z * Z) in
                          if hi <=? c then (dnz, onz + 1) else if row <=? c then (dnz + 1, onz) else (dnz, onz))
              cols (0, 0).

  (** src/petigamat.c:449-450, 473-489 dnz[], onz[] of one block row: nbs = n and Nbs = N for the block
      formats; [lo, hi) are the rank's block rows. *)
  Definition block_prealloc (sym : bool) (n N lo hi row : Z) (cols : list Z) : Z * Z :=
    if sym then
      let (dnz, onz) := sym_counts row hi cols in
      if N <? maxnnz dim axes then (Z.min dnz n, Z.min onz (N - n)) else (dnz, onz)
    else prealloc dim axes 1 n N lo hi cols.
End Block.

(** Assembly into MATSBAIJ by MatSetValuesBlockedLocal(ADD_VALUES) (src/petigaelem.c:1542-1559) when the
    matrix has been told to ignore the lower triangle (MAT_IGNORE_LOWER_TRIANGULAR or
    -mat_ignore_lower_triangular; without it PETSc reports an error): blocks below the diagonal are
    skipped. *)
Definition upper_entries (bs : Z) (l : list (Z * Z * R)) : list (Z * Z * R) :=
  filter (fun p => let '(i, j, _) := p in i / bs <=? j / bs) l.
Section SymAssembly.
  Variable size : Z.
  Variable G : Z -> grid.
  Variable dof : Z.
  Variable elems : Z -> list triple.
  Variable mapping : Z -> triple -> list Z.
  Variable Ke : triple -> list (list R) -> Z -> R.
  Variable inputs : list (Z -> R).
  Variable L0 : Z -> Z -> R.
  (** src/petigaksp.c:80-125, src/petigasnes.c:82-130, as [compute_matrix] of ElemModel.v *)
  Definition compute_sym (order : list Z) : Z -> Z -> R :=
    fold_left (fun M r => fold_left (fun M e => add_entries2 (upper_entries dof (mat_entries size G dof mapping Ke inputs L0 r e)) M)
                                    (elems r) M) order (fun _ _ => 0%R).
End SymAssembly.
