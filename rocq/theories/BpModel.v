(** Preallocation of the matrix of the basis-by-basis preconditioner. *)
From Coq Require Import ZArith List.
From Verif Require Import Prelude.
Import ListNotations.
Open Scope Z_scope.

(** src/petigapcb.c:94 dnnz=1, onnz=0 and :95 the product over the directions. *)
Definition bbb_dnnz (dim : Z) (ov : Z -> Z) : Z := fold_left (fun n i => n * (4*ov i + 1)) (zseq 0 dim) 1.
Definition bbb_onnz : Z := 0.
(** src/petigapcb.c:96-99: formats "aij", entries of a row in the columns of the process and in the others; for "baij"
    (:100-102) the numbers above count blocks of dof columns. *)
Definition bbb_dnnz_aij (dim dof : Z) (ov : Z -> Z) : Z := bbb_dnnz dim ov * dof.
Definition bbb_onnz_aij (dof : Z) : Z := bbb_onnz * dof.
