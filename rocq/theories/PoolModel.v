(** Model of the reusable work storage: local vectors of an IGA (src/petigavec.c), work arrays of elements and points
    (src/petigaelem.c, src/petigapoint.c).  Definitions only. *)
From Coq Require Import ZArith List Bool Reals.
From Verif Require Import Prelude AxisInitModel ElemModel.
Import ListNotations.
Open Scope Z_scope.

(** * IGAGetLocalVec, IGARestoreLocalVec *)
(** Vectors are numbered in the order of creation; [vp_sizes] is the size each was created with, [vp_destroyed] the
    destroyed ones, [vp_lsize] the local size of the current layout (dof times the ghosted box). *)
Record vpool := mk_vpool {
  vp_nwork : Z;               (* iga->nwork *)
  vp_vwork : Z -> option Z;   (* iga->vwork, None for NULL *)
  vp_created : Z;
  vp_sizes : Z -> Z;
  vp_destroyed : list Z;
  vp_lsize : Z }.

(** include/petiga.h:383 *)
Definition POOL_CAP : Z := 16.

(** src/petiga.c:32-63 IGACreate and a set-up with local size n (PetscNew zeroes the structure). *)
Definition vp_init (n : Z) : vpool := mk_vpool 0 (fun _ => None) 0 (fun _ => 0) [] n.

(** src/petigavec.c:93-113 IGACreateLocalVec *)
Definition create_local (s : vpool) : Z * vpool :=
  (vp_created s, mk_vpool (vp_nwork s) (vp_vwork s) (vp_created s + 1) (upd (vp_sizes s) (vp_created s) (vp_lsize s)) (vp_destroyed s) (vp_lsize s)).
(** src/petigavec.c:115-129 IGAGetLocalVec; [None] for a NULL handle *)
Definition get_local (s : vpool) : option Z * vpool :=
  if 0 <? vp_nwork s then
    let n := vp_nwork s - 1 in
    (vp_vwork s n, mk_vpool n (upd (vp_vwork s) n None) (vp_created s) (vp_sizes s) (vp_destroyed s) (vp_lsize s))
  else let (v, s) := create_local s in (Some v, s).
(** src/petigavec.c:131-146 IGARestoreLocalVec (the caller's handle becomes NULL) *)
Definition restore_local (v : Z) (s : vpool) : vpool :=
  if vp_nwork s <? POOL_CAP then
    mk_vpool (vp_nwork s + 1) (upd (vp_vwork s) (vp_nwork s) (Some v)) (vp_created s) (vp_sizes s) (vp_destroyed s) (vp_lsize s)
  else mk_vpool (vp_nwork s) (vp_vwork s) (vp_created s) (vp_sizes s) (v :: vp_destroyed s) (vp_lsize s).
(** src/petiga.c:141-142, in IGAReset: while (nwork > 0) VecDestroy(&vwork[--nwork]), which sets the slot to NULL *)
Fixpoint empty_pool (fuel : nat) (s : vpool) : vpool :=
  match fuel with
  | 0%nat => s
  | S f =>
      if 0 <? vp_nwork s then
        let n := vp_nwork s - 1 in
        empty_pool f (mk_vpool n (upd (vp_vwork s) n None) (vp_created s) (vp_sizes s)
                        (match vp_vwork s n with Some v => v :: vp_destroyed s | None => vp_destroyed s end) (vp_lsize s))
      else s
  end.
(** IGAReset followed by a set-up with local size n. *)
Definition reset_to (n : Z) (s : vpool) : vpool :=
  let s := empty_pool (Z.to_nat (vp_nwork s)) s in
  mk_vpool (vp_nwork s) (vp_vwork s) (vp_created s) (vp_sizes s) (vp_destroyed s) n.

(** A user program: the handles it holds are a list; it may give back any of them at any time. *)
Inductive vop := VGet | VRestore (k : nat) | VReset (n : Z).
Fixpoint remove_at {A} (k : nat) (l : list A) : list A :=
  match l, k with [], _ => [] | _ :: l, 0%nat => l | x :: l, S k => x :: remove_at k l end.
Definition vstep (st : vpool * list (option Z)) (o : vop) : vpool * list (option Z) :=
  let (s, held) := st in
  match o with
  | VGet => let (v, s) := get_local s in (s, held ++ [v])
  | VRestore k => match nth_error held k with
                  | Some (Some v) => (restore_local v s, remove_at k held)
                  | _ => (s, held)          (* PetscValidHeaderSpecific fails *)
                  end
  | VReset n => (reset_to n s, held)
  end.
Definition vrun (n : Z) (ops : list vop) : vpool * list (option Z) := fold_left vstep ops (vp_init n, []).

(** * Work arrays of an element or a point *)
(** include/petiga.h:591-596 and 699-702: the array kinds and their numbers of slots. *)
Inductive wkind := WVal | WVec | WMat.
Definition wkind_eqb (a b : wkind) : bool :=
  match a, b with WVal, WVal | WVec, WVec | WMat, WMat => true | _, _ => false end.
Definition wcap (k : wkind) : Z := match k with WVal => 8 | WVec => 8 | WMat => 4 end.

(** An allocated array is named by its kind and slot (PetscMalloc1 in src/petigaelem.c:241-251,
    src/petigapoint.c:81-89: distinct blocks); [wk_alloc] is its length, [wk_mem] the memory.
    [wk_next k] is nval, nvec or nmat; [wk_index] is element->index or point->index. *)
Record wpool := mk_wpool { wk_index : Z; wk_next : wkind -> Z; wk_mem : wkind -> Z -> Z -> R }.

Section Work.
  Variables neq nen dof : Z.
  Definition wk_alloc (k : wkind) : Z := match k with WMat => (nen*dof) * (nen*dof) | _ => nen*dof end.
  (** Number of entries written by the call that hands out the array. *)
  Definition wk_len (k : wkind) : Z := match k with WVal => nen*dof | WVec => neq*dof | WMat => (neq*dof) * (nen*dof) end.
  (** The loops writing len values from position 0. *)
  Definition fill (mem : wkind -> Z -> Z -> R) (k : wkind) (slot len : Z) (val : Z -> R) : wkind -> Z -> Z -> R :=
    fun k' s i => if wkind_eqb k k' && (s =? slot) && (0 <=? i) && (i <? len) then val i else mem k' s i.
  Definition get_work (k : wkind) (val : Z -> R) (w : wpool) : status * option Z * wpool :=
    if wk_index w <? 0 then (ErrState, None, w)
    else if wcap k <=? wk_next w k then (ErrRange, None, w)
    else let s := wk_next w k in
         (Ok, Some s, mk_wpool (wk_index w) (fun k' => if wkind_eqb k k' then s + 1 else wk_next w k')
                               (fill (wk_mem w) k s (wk_len k) val)).
  (** src/petigaelem.c:1036-1054 IGAElementGetWorkVec, 1056-1073 IGAElementGetWorkMat,
      src/petigapoint.c:414-431 IGAPointGetWorkVec, 433-449 IGAPointGetWorkMat *)
  Definition get_work_vec := get_work WVec (fun _ => 0%R).
  Definition get_work_mat := get_work WMat (fun _ => 0%R).
  (** src/petigaelem.c:1075-1102 IGAElementGetValues: the values written to U[pos++] (zeros without an array);
      [mapping] has nen entries. *)
  Definition value_list (mapping : list Z) (arrayU : option (Z -> R)) : list R :=
    match arrayU with
    | Some u => get_values dof mapping u
    | None => map (fun _ => 0%R) (zseq 0 (nen*dof))
    end.
  Definition get_work_values (mapping : list Z) (arrayU : option (Z -> R)) (w : wpool) : status * option Z * wpool :=
    get_work WVal (fun pos => nth (Z.to_nat pos) (value_list mapping arrayU) 0%R) w.
  (** The start of IGANextElement (src/petigaelem.c:384-388) and of IGAElementNextPoint (493-496). *)
  Definition next_work (index : Z) (w : wpool) : wpool := mk_wpool index (fun _ => 0) (wk_mem w).
  (** A store of the user program into an array. *)
  Definition store (k : wkind) (s i : Z) (x : R) (w : wpool) : wpool :=
    mk_wpool (wk_index w) (wk_next w) (fun k' s' i' => if wkind_eqb k k' && (s' =? s) && (i' =? i) then x else wk_mem w k' s' i').
End Work.
