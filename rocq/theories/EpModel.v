(** Nonzero structure of the matrix of the element-by-element preconditioner. *)
From Coq Require Import ZArith List Bool.
Import ListNotations.
Open Scope Z_scope.

(** src/petigapce.c:34-43 MatGetDiagonalBlock and MatGetRowIJ: [pat] are the stored places of the process in the global
    numbering, [s], [e] its range of rows and columns; the rows and columns of the diagonal block count from 0. *)
Definition diagonal_block (s e : Z) (pat : list (Z * Z)) : list (Z * Z) :=
  map (fun ij => (fst ij - s, snd ij - s)) (filter (fun ij => (s <=? snd ij) && (snd ij <? e)) pat).
(** src/petigapce.c:18-75 PCSetUp_EBE_CreateMatrix, format "aij": newja[j] = ja[j] + cstart (:61), the rows of
    MatMPIAIJSetPreallocationCSR are those of the process in turn (:62); on one process MatDuplicate (:71).  What is not
    stored is an error (:72 MAT_NEW_NONZERO_LOCATION_ERR). *)
Definition ebe_pattern (size s e : Z) (pat : list (Z * Z)) : list (Z * Z) :=
  if 1 <? size then map (fun ij => (fst ij + s, snd ij + s)) (diagonal_block s e pat) else pat.
(** src/petigapce.c:42-43,53,63: format "baij", compressed rows and cstart /= bs: the same with the tiles of bs x bs places. *)
Definition ebe_tiles (size bs s e : Z) (pat : list (Z * Z)) : list (Z * Z) :=
  ebe_pattern size (s / bs) (e / bs) (map (fun ij => (fst ij / bs, snd ij / bs)) pat).
