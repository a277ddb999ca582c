(** Model of src/petigapcmg.c: coarsening factors and number of levels of the multigrid hierarchy.  Definitions only. *)
From Coq Require Import ZArith List Bool.
From Verif Require Import Prelude AxisInitModel.
Import ListNotations.
Open Scope Z_scope.

(** src/petigapcmg.c:38-41 primes *)
Definition primes : list Z :=
  [2; 3; 5; 7; 11; 13; 17; 19; 23; 29;
   31; 37; 41; 43; 47; 53; 59; 61; 67; 71;
   73; 79; 83; 89; 97; 101; 103; 107; 109; 113;
   127; 131; 137; 139; 149; 151; 157; 163; 167; 173].

(** src/petigapcmg.c:44-69 CoarsenFactor.  Arrays of three integers are functions; C's / and % are Z.quot and Z.rem.
    [mg_first_prime]: the loop over the table with its break, lines 59-62. *)
Fixpoint mg_first_prime (l : list Z) (m f : Z) : Z :=
  match l with
  | [] => f
  | q :: l' => if Z.rem m q =? 0 then q else mg_first_prime l' m f
  end.
Definition mg_cell_factor (M factor : Z -> Z) (i : Z) : Z -> Z := upd factor i (mg_first_prime primes (M i) (factor i)).
(** lines 63-67: the two nested loops, factor updated in place *)
Definition mg_avoid_inner (M : Z -> Z) (i : Z) (factor : Z -> Z) (j : Z) : Z -> Z :=
  if negb (i =? j) && (M i <=? Z.quot (M j) (factor j)) then upd factor i 1 else factor.
Definition mg_avoid (dim : Z) (M : Z -> Z) (factor : Z -> Z) (i : Z) : Z -> Z :=
  fold_left (mg_avoid_inner M i) (zseq 0 dim) factor.
Definition coarsen_factor (dim : Z) (M P factor : Z -> Z) : bool * (Z -> Z) :=
  let tiny := 2*3 in
  let f0 := fold_left (fun f i => upd f i (M i)) (zseq 0 dim) factor in
  if M 0 * M 1 * M 2 <=? 1 then (false, f0)
  else if (M 0 <=? tiny) && (M 1 <=? tiny) && (M 2 <=? tiny) then (false, f0)
  else if existsb (fun i => M i <=? P i) (zseq 0 dim) then (false, f0)
  else
    let f1 := fold_left (mg_cell_factor M) (zseq 0 dim) f0 in
    let f2 := fold_left (mg_avoid dim M) (zseq 0 dim) f1 in
    (true, f2).

(** src/petigapcmg.c:85-86 and 105-106: sizes from DMDAGetInfo (1 in unused directions), one less where the grid does
    not wrap ([wraps i]: btype[i] <> DM_BOUNDARY_NONE). *)
Definition mg_cells (dim : Z) (nodes : Z -> Z) (wraps : Z -> bool) : Z -> Z :=
  fold_left (fun M i => if wraps i then M else upd M i (M i - 1)) (zseq 0 dim) nodes.

(** src/petigapcmg.c:87-88: the while loop; [fuel] is 64 - levels, so the loop test levels < 64 is fuel > 0.
    Returns the number of levels and the sizes on the last one. *)
Fixpoint coarsen_loop (fuel : nat) (dim : Z) (P M factor : Z -> Z) (levels : Z) : Z * (Z -> Z) :=
  let (go, f) := coarsen_factor dim M P factor in
  if go then
    match fuel with
    | O => (levels, M)
    | Datatypes.S fuel' => coarsen_loop fuel' dim P (fold_left (fun M i => upd M i (Z.quot (M i) (f i))) (zseq 0 dim) M) f (levels + 1)
    end
  else (levels, M).
(** src/petigapcmg.c:75-93 DMDAComputeCoarsenLevels *)
Definition coarsen_levels (dim : Z) (nodes P : Z -> Z) (wraps : Z -> bool) : Z :=
  fst (coarsen_loop 63 dim P (mg_cells dim nodes wraps) (fun _ => 1) 1).

(** src/petigapcmg.c:95-114 DMDAComputeCoarsenFactor: the factors stored in the grid. *)
Definition coarsen_factor_of (dim : Z) (nodes P : Z -> Z) (wraps : Z -> bool) : Z -> Z :=
  snd (coarsen_factor dim (mg_cells dim nodes wraps) P (fun _ => 1)).
(** PETSc's DMCoarsen of a DMDA (not PetIGA code): sizes of the coarse grid, on the same processes; then
    src/petigapcmg.c:71-73 DMDACoarsenHook_PCMG calls DMDAComputeCoarsenFactor on it. *)
Definition dmda_coarse_size (wraps : bool) (n f : Z) : Z := if wraps then Z.quot n f else 1 + Z.quot (n - 1) f.
Definition dmda_coarsen (dim : Z) (nodes P : Z -> Z) (wraps : Z -> bool) : Z -> Z :=
  fun i => if (0 <=? i) && (i <? dim) then dmda_coarse_size (wraps i) (nodes i) (coarsen_factor_of dim nodes P wraps i) else nodes i.
(** The grid k levels below the finest. *)
Fixpoint dmda_level (k : nat) (dim : Z) (nodes P : Z -> Z) (wraps : Z -> bool) : Z -> Z :=
  match k with O => nodes | Datatypes.S k' => dmda_coarsen dim (dmda_level k' dim nodes P wraps) P wraps end.
