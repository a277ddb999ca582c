(** The two preconditioners of src/petigapce.c (element by element, "ebe") and src/petigapcb.c (basis by basis, "bbb").
    Not modelled: the creation of the matrix B (its nonzero pattern and preallocation), the type dispatch on the matrix A,
    flop logging, and the freeing of the buffers. LAPACK's getrf followed by getri is an argument [lapack]. *)
From Coq Require Import ZArith List Bool Reals.
From Verif Require Import Prelude Box GridModel ElemModel SetupModel SolvModel.
Import ListNotations.
Open Scope Z_scope.

(** The index list of a block, read as the C array [indices]. *)
Definition entry (l : list Z) (a : Z) : Z := nth (Z.to_nat a) l 0.
Definition len (l : list Z) : Z := Z.of_nat (length l).

(** PETSc MatGetValues(A,n,indices,n,indices,values) (src/petigapce.c:148, src/petigapcb.c:217): row-major. *)
Definition mat_get_values (A : Z -> Z -> R) (l : list Z) : Z -> R :=
  fun k => A (entry l (k / len l)) (entry l (k mod len l)).

(** PETSc MatSetValues(B,n,indices,n,indices,values,ADD_VALUES) (src/petigapce.c:163, src/petigapcb.c:237): the
    contributions it makes, row-major. *)
Definition mat_set_values (l : list Z) (values : Z -> R) : list (Z * Z * R) :=
  flat_map (fun a => map (fun b => (entry l a, entry l b, values (a * len l + b))) (zseq 0 (len l))) (zseq 0 (len l)).

(** src/petigapce.c:77-90 ComputeOwnedGlobalIndices *)
Definition owned_indices (lgmap : Z -> Z) (bs start stop : Z) (idx : list Z) : list Z :=
  flat_map (fun i => let index := lgmap i in
    if (start <=? index) && (index <? stop) then map (fun c => c + index * bs) (zseq 0 bs) else []) idx.

Section Setup.
  (** getrf and getri on an n x n array; None when getrf or getri return info > 0. *)
  Variable lapack : Z -> (Z -> R) -> option (Z -> R).

  (** src/petigapce.c:149-161; with n = 0 the leading dimension passed is 0 and getrf returns info < 0. *)
  Definition ebe_invert (n : Z) (values : Z -> R) : option (Z -> R) :=
    if n =? 0 then None else lapack n values.

  (** src/petigapcb.c:218-235 *)
  Definition bbb_invert (n : Z) (values : Z -> R) : option (Z -> R) :=
    if 1 <? n then lapack n values
    else if n =? 1 then
      Some (if Rlt_dec 0 (Rabs (values 0)) then (fun k => if k =? 0 then (1 / values 0%Z)%R else values k) else values)
    else Some values.

  (** One pass of the loops src/petigapce.c:144-166 and src/petigapcb.c:210-239: read the block, invert, add. *)
  Definition add_block (invert : Z -> (Z -> R) -> option (Z -> R)) (A : Z -> Z -> R) (B : option (Z -> Z -> R)) (l : list Z) : option (Z -> Z -> R) :=
    match B with
    | None => None
    | Some B => match invert (len l) (mat_get_values A l) with
                | None => None
                | Some values => Some (add_entries2 (mat_set_values l values) B)
                end
    end.

  (** MatZeroEntries, then the passes in turn. *)
  Definition pc_setup invert (A : Z -> Z -> R) (blocks : list (list Z)) : option (Z -> Z -> R) :=
    fold_left (add_block invert A) blocks (Some (fun _ _ => 0%R)).

  (** The blocks of PCSetUp_EBE (src/petigapce.c:143-147) on the processes in [order]; [elems] and [mapping] are the
      element iteration and the closures of ElemModel.v; start and end are the ownership range over dof (:130-131).
      Every process adds only to its own rows, so the order of the processes is immaterial to PETSc; here it is an argument. *)
  Definition ebe_blocks (size : Z) (G : Z -> grid) (dof : Z) (elems : Z -> list triple) (mapping : Z -> triple -> list Z) (order : list Z) : list (list Z) :=
    flat_map (fun r => map (fun e => owned_indices (lgmap size G r) dof ((dof * off G r) / dof) ((dof * off G (r+1)) / dof) (mapping r e)) (elems r)) order.
  Definition pc_ebe size G dof elems mapping order A := pc_setup ebe_invert A (ebe_blocks size G dof elems mapping order).

  (** The blocks of PCSetUp_BBB (src/petigapcb.c:210-214): one per owned node. *)
  Definition bbb_blocks (size : Z) (G : Z -> grid) (dim dof : Z) (ov : Z -> Z) (nd : Z -> Z -> range) (order : list Z) : list (list Z) :=
    flat_map (fun r => map (bbb_block size G dim dof ov nd r) (box (gr_lstart (G r)) (gr_lwidth (G r)))) order.
  Definition pc_bbb size G dim dof ov nd order A := pc_setup bbb_invert A (bbb_blocks size G dim dof ov nd order).
End Setup.
