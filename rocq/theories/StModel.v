(** Life of the basis-by-basis preconditioner: options, repeated set-ups, reset. *)
From Coq Require Import ZArith List Bool.
From Verif Require Import Prelude Box GridModel SetupModel SolvModel BpModel.
Import ListNotations.
Open Scope Z_scope.

(** src/petigapcb.c:6-13 PC_BBB; [st_fit] is the overlap from which ghost_start and ghost_width were computed, [st_mat]
    the reserve per row ("aij") of bbb->mat; [st_called] is pc->setupcalled. *)
Record bbb_state := mk_state { st_overlap : Z -> Z; st_called : bool; st_fit : Z -> Z; st_mat : option Z }.
(** src/petigapcb.c:340-352 PCCreate_IGABBB: PETSC_DECIDE is -1. *)
Definition bbb_create : bbb_state := mk_state (fun _ => -1) false (fun _ => 0) None.
(** src/petigapcb.c:267-272 PCSetFromOptions_BBB: [given] the values of -pc_bbb_overlap, None without the option;
    PetscOptionsIntArray writes the first [no] of three values. *)
Definition bbb_options (given : option (list Z)) (s : bbb_state) : bbb_state :=
  match given with
  | None => s
  | Some l =>
      let no := Z.min (Z.of_nat (length l)) 3 in
      let overlap i := if i <? no then nth (Z.to_nat i) l 0 else st_overlap s i in
      mk_state (fun i => if i <? no then overlap i else overlap 0) (st_called s) (st_fit s) (st_mat s)
  end.
(** src/petigapcb.c:128-175 PCSetUp_BBB: overlaps and ghost ranges only before the first set-up (:128,140-160), the matrix
    when there is none or the structure of A has changed (:170-175).  PETSc: before the first set-up pc->flag is not
    SAME_NONZERO_PATTERN; PCSetUp sets pc->setupcalled. *)
Definition bbb_setup (dim dof : Z) (p : Z -> Z) (same : bool) (s : bbb_state) : bbb_state :=
  let ov := if st_called s then st_overlap s else fun i => if i <? dim then bbb_overlap (p i) (st_overlap s i) else 0 in
  let fit := if st_called s then st_fit s else ov in
  let mat := if negb (same && st_called s) then None else st_mat s in
  let mat := match mat with Some n => n | None => bbb_dnnz_aij dim dof ov end in
  mk_state ov true fit (Some mat).
(** src/petigapcb.c:317-326 PCReset_BBB; PETSc's PCReset clears pc->setupcalled. *)
Definition bbb_reset (s : bbb_state) : bbb_state := mk_state (st_overlap s) false (st_fit s) None.

(** src/petigapcb.c:195-218: as bbb_block of SolvModel.v, with the ghosted box of overlap [fit] and the overlap [ov] in use,
    which need not be 0 in unused directions. *)
Definition bbb_block_in (size : Z) (G : Z -> grid) (dim dof : Z) (fit ov : Z -> Z) (nd : Z -> Z -> range) (r : Z) (t : triple) : list Z :=
  let g := bbb_grid dim fit (nd r) in
  let lg k := ao size G (nth (Z.to_nat k) (ghost_indices g) (-1)) in
  let rstart := (dof * off G r) / dof in let rend := (dof * off G (r+1)) / dof in
  compute_overlap lg dof rstart rend (gr_gstart g) (gr_gwidth g) ov t.
(** src/petigapcb.c:213-218: the blocks of process r in the present state. *)
Definition state_blocks (size : Z) (G : Z -> grid) (dim dof : Z) (nd : Z -> Z -> range) (s : bbb_state) (r : Z) : list (list Z) :=
  map (bbb_block_in size G dim dof (st_fit s) (st_overlap s) nd r) (box (gr_lstart (G r)) (gr_lwidth (G r))).
