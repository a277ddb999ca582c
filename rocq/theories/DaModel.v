(** Model of the DMDAs describing the parts of an IGA: IGACreateDMDA, IGACreateElemDM, IGACreateGeomDM,
    IGACreateNodeDM (src/petiga.c), and of VecView, VecLoad of the vectors of an IGA (src/petigavec.c).
    Definitions only. *)
From Coq Require Import ZArith List Bool Reals.
From Verif Require Import Prelude Box AxisModel SetupModel GridModel DrawModel.
Import ListNotations.
Open Scope Z_scope.

(** What one process tells PETSc about a DMDA. *)
Record da := mk_da { da_dim : Z; da_dof : Z; da_procs : Z -> Z; da_sizes : Z -> Z; da_ranges : Z -> list Z;
                     da_periodic : Z -> bool; da_box : bool; da_swidth : Z }.

Section Create.
  Variable dim : Z.
  Variable LY : Z -> layout.

  (** src/petiga.c:936-995 IGACreateDMDA on rank r; [lsizes q d] is the argument lsizes[d] of rank q.
      procs[d] stays -1 (decided by PETSc: 1) for d >= dim, where sizes[d] = 1 and ranges[d] is NULL
      (decided by PETSc: all).  The communicators of the Allgather are those of [line_rank] (DrawModel.v). *)
  Definition create_dmda (bs : Z) (gsizes : Z -> Z) (lsizes : Z -> Z -> Z) (periodic : option (Z -> bool))
      (stencil_box : bool) (stencil_width : Z) (r : Z) : da :=
    mk_da dim bs
      (fun d => if d <? dim then ly_procs (LY r) d else 1)
      (fun d => if d <? dim then gsizes d else 1)
      (fun d => if d <? dim then map (fun c => lsizes (line_rank LY r d c) d) (zseq 0 (ly_procs (LY r) d)) else [1])
      (fun d => if d <? dim then match periodic with Some f => f d | None => false end else false)
      stencil_box stencil_width.

  (** src/petiga.c:997-1058 *)
  Definition create_elem_dm (bs r : Z) : da :=
    create_dmda bs (ly_elem_size (LY r)) (fun q => ly_elem_width (LY q)) None true 0 r.
  Definition create_geom_dm (bs r : Z) : da :=
    create_dmda bs (fun d => r_size (ly_geom (LY r) d)) (fun q d => r_lwidth (ly_geom (LY q) d)) None true 0 r.
  Definition create_node_dm (bs r : Z) : da :=
    create_dmda bs (fun d => r_size (ly_node (LY r) d)) (fun q d => r_lwidth (ly_node (LY q) d)) None true 0 r.
End Create.

(** PETSc's DMDA (DMSetUp, DMDAGetCorners, DMDAVecGetArrayDOF, the natural ordering of VecView and
    VecLoad), for a DMDA that all processes describe alike. *)
Definition da_coord (D : da) (r d : Z) : Z :=
  if d =? 0 then r mod da_procs D 0
  else if d =? 1 then (r / da_procs D 0) mod da_procs D 1
  else r / (da_procs D 0 * da_procs D 1).
Definition da_start (D : da) (r d : Z) : Z := fold_left Z.add (firstn (Z.to_nat (da_coord D r d)) (da_ranges D d)) 0.
Definition da_width (D : da) (r d : Z) : Z := nth (Z.to_nat (da_coord D r d)) (da_ranges D d) 0.
(** What DMSetUp checks. *)
Definition da_accepted (size : Z) (D : da) : Prop :=
  1 <= da_dim D <= 3 /\ 1 <= da_dof D /\ da_procs D 0 * da_procs D 1 * da_procs D 2 = size /\
  forall d, 0 <= d < 3 ->
    1 <= da_procs D d <= da_sizes D d /\ Z.of_nat (length (da_ranges D d)) = da_procs D d /\
    fold_left Z.add (da_ranges D d) 0 = da_sizes D d /\ Forall (fun w => da_swidth D <= w) (da_ranges D d).
(** First block of rank r in a global vector; position of component c of the entry t of its array. *)
Definition da_off (D : da) (r : Z) : Z := zsum (fun q => vol (da_width D q)) 0 r.
Definition da_index (D : da) (r : Z) (t : triple) (c : Z) : Z :=
  let '(i, j, k) := t in
  da_dof D * (da_off D r + lin (da_width D r) (i - da_start D r 0, j - da_start D r 1, k - da_start D r 2)) + c.
(** Global to natural: (global, natural) pairs of entries, all ranks. *)
Definition da_pairs (size : Z) (D : da) : list (Z * Z) :=
  flat_map (fun r => flat_map (fun t => map (fun c => (da_index D r t c, da_dof D * lin (da_sizes D) t + c)) (zseq 0 (da_dof D)))
                              (box (da_start D r) (da_width D r))) (zseq 0 size).
Definition swap (p : Z * Z) : Z * Z := (snd p, fst p).

(** src/petigavec.c:18-47 VecView_IGA with a viewer other than VTK, draw and GLVis: VecCopy to a vector of
    the node DM (same indices), VecView of that vector; the file is the vector in natural ordering;
    [f0]: anything. *)
Definition vec_view (size : Z) (D : da) (v f0 : Z -> R) : Z -> R := insert_pairs (da_pairs size D) v f0.
(** src/petigavec.c:48-62 VecLoad_IGA: VecLoad into a vector of the node DM (previous contents [w0]), VecCopy. *)
Definition vec_load (size : Z) (D : da) (f w0 : Z -> R) : Z -> R := insert_pairs (map swap (da_pairs size D)) f w0.
