(** The memory of an IGAForm: the struct with its twelve separately allocated condition tables, as
    src/petigaform.c:25-152 handles them.  BCModel.v has the same calls on tables as lists; here every access goes through
    a pointer and a table has 64 places.  Definitions only.  Simplified: the callbacks (form->ops) are in FormModel.v, the
    counter of references in RefModel.v; a form has one owner here. *)
From Coq Require Import ZArith List Bool.
From Verif Require Import Prelude BCModel.
Import ListNotations.
Open Scope Z_scope.

(** include/petiga.h:220-225 struct _IGAFormBC *)
Record bcb (V : Type) := mk_bcb { b_count : Z; b_field : Z -> Z; b_value : Z -> V }.
Arguments mk_bcb {V}. Arguments b_count {V}. Arguments b_field {V}. Arguments b_value {V}.

(** include/petiga.h:261-270 struct _n_IGAForm and the blocks allocated so far; a block that is freed or was never
    allocated is [None], so is a NULL pointer. *)
Record fmem (V : Type) := mk_fmem {
  m_next : Z; m_blk : Z -> option (bcb V); m_alive : bool;
  m_dof : Z; m_value : Z -> Z -> option Z; m_load : Z -> Z -> option Z; m_visit : Z -> Z -> bool }.
Arguments mk_fmem {V}. Arguments m_next {V}. Arguments m_blk {V}. Arguments m_alive {V}. Arguments m_dof {V}.
Arguments m_value {V}. Arguments m_load {V}. Arguments m_visit {V}.

(** Success, an error code, or undefined behaviour. *)
Inductive res (A : Type) := ROk (a : A) | RErr (a : A) | RFault.
Arguments ROk {A}. Arguments RErr {A}. Arguments RFault {A}.

Section Form.
Variable V : Type.
Variable zero : V.

(** PetscCalloc1 of a table. *)
Definition calloc (m : fmem V) : Z * fmem V :=
  (m_next m, mk_fmem (m_next m + 1)
     (fun z => if z =? m_next m then Some (mk_bcb 0 (fun _ => 0) (fun _ => zero)) else m_blk m z)
     (m_alive m) (m_dof m) (m_value m) (m_load m) (m_visit m)).

Definition faces6 : list (Z * Z) := [(0,0); (0,1); (1,0); (1,1); (2,0); (2,1)].

(** src/petigaform.c:37-41: the body of the two loops. *)
Definition create_face (m : fmem V) (p : Z * Z) : fmem V :=
  let '(a, s) := p in
  let (v, m1) := calloc m in
  let m2 := mk_fmem (m_next m1) (m_blk m1) (m_alive m1) (m_dof m1) (set2 (m_value m1) a s (Some v)) (m_load m1) (m_visit m1) in
  let (l, m3) := calloc m2 in
  mk_fmem (m_next m3) (m_blk m3) (m_alive m3) (m_dof m3) (m_value m3) (set2 (m_load m3) a s (Some l)) (m_visit m3).

(** src/petigaform.c:25-43: the struct is zeroed, dof is -1. *)
Definition IGAFormCreate : fmem V :=
  fold_left create_face faces6
    (mk_fmem 0 (fun _ => None) true (-1) (fun _ _ => None) (fun _ _ => None) (fun _ _ => false)).

Definition deref (m : fmem V) (p : option Z) : option (bcb V) := match p with None => None | Some i => m_blk m i end.
Definition in64 (k : Z) : bool := (0 <=? k) && (k <? 64).
Definition store (m : fmem V) (p : option Z) (b : bcb V) : fmem V :=
  match p with
  | None => m
  | Some i => mk_fmem (m_next m) (fun z => if z =? i then Some b else m_blk m z) (m_alive m) (m_dof m) (m_value m) (m_load m) (m_visit m)
  end.
Definition upd {A} (f : Z -> A) (k : Z) (x : A) : Z -> A := fun z => if z =? k then x else f z.

(** src/petigaform.c:104-105: the loop, [n] turns before [k] reaches count; None: read outside the array. *)
Fixpoint search (n : nat) (k : Z) (b : bcb V) (field : Z) : option Z :=
  match n with
  | O => Some k
  | S n' => if in64 k then if b_field b k =? field then Some k else search n' (k + 1) b field else None
  end.

(** src/petigaform.c:100-110 *)
Definition IGAFormBCSetEntry (m : fmem V) (p : option Z) (field : Z) (v : V) : res (fmem V) :=
  match deref m p with
  | None => RFault
  | Some b =>
      match search (Z.to_nat (b_count b)) 0 b field with
      | None => RFault
      | Some k =>
          let cnt := if k =? b_count b then b_count b + 1 else b_count b in
          if in64 k then ROk (store m p (mk_bcb cnt (upd (b_field b) k field) (upd (b_value b) k v))) else RFault
      end
  end.

(** [bc->count = 0] *)
Definition clear_table (m : fmem V) (p : option Z) : res (fmem V) :=
  match deref m p with
  | None => RFault
  | Some b => ROk (store m p (mk_bcb 0 (b_field b) (b_value b)))
  end.

(** src/petigaform.c:90-93 IGAFormUpdateDof *)
Definition update_dof (m : fmem V) (c : Z) : fmem V :=
  mk_fmem (m_next m) (m_blk m) (m_alive m) (Z.max (m_dof m) (c + 1)) (m_value m) (m_load m) (m_visit m).
Definition set_visit (m : fmem V) (a s : Z) (b : bool) : fmem V :=
  mk_fmem (m_next m) (m_blk m) (m_alive m) (m_dof m) (m_value m) (m_load m) (set2 (m_visit m) a s b).

(** src/petigaform.c:112-152 behind the checks of 324-365, as in [bc_step]. *)
Definition fstep (dim dof : Z) (op : bc_op V) (m : fmem V) : res (fmem V) :=
  if negb (m_alive m) then RFault else
  match op with
  | SetValue a s c v =>
      if (0 <? dim) && negb (check_arg a dim) then RErr m
      else if (0 <? dof) && negb (check_arg c dof) then RErr m
      else if negb (check_arg a 3) then RErr m
      else if negb (check_arg s 2) then RErr m
      else if negb (check_arg c 64) then RErr m
      else let m := update_dof m c in IGAFormBCSetEntry m (m_value m a s) c v
  | SetLoad a s c v =>
      if (0 <? dim) && negb (check_arg a dim) then RErr m
      else if (0 <? dof) && negb (check_arg c dof) then RErr m
      else if negb (check_arg a 3) then RErr m
      else if negb (check_arg s 2) then RErr m
      else if negb (check_arg c 64) then RErr m
      else let m := update_dof m c in IGAFormBCSetEntry m (m_load m a s) c v
  | SetForm a s b =>
      if (0 <? dim) && negb (check_arg a dim) then RErr m
      else if negb (check_arg a 3) then RErr m
      else if negb (check_arg s 2) then RErr m
      else ROk (set_visit m a s b)
  | Clear a s =>
      if negb (check_arg a 3) then RErr m
      else if negb (check_arg s 2) then RErr m
      else match clear_table m (m_value m a s) with
           | ROk m1 => match clear_table m1 (m_load m1 a s) with
                       | ROk m2 => ROk (set_visit m2 a s false)
                       | r => r
                       end
           | r => r
           end
  end.

(** PetscFree of a table and of the pointer: NULL is fine, a block freed before is not. *)
Definition free_table (m : fmem V) (p : option Z) : res (fmem V) :=
  match p with
  | None => ROk m
  | Some i => match m_blk m i with
              | None => RFault
              | Some _ => ROk (mk_fmem (m_next m) (fun z => if z =? i then None else m_blk m z) (m_alive m) (m_dof m) (m_value m) (m_load m) (m_visit m))
              end
  end.
Definition free_face (r : res (fmem V)) (p : Z * Z) : res (fmem V) :=
  let '(a, s) := p in
  match r with
  | ROk m => match free_table m (m_value m a s) with
             | ROk m1 => free_table m1 (m_load m1 a s)
             | r => r
             end
  | r => r
  end.

(** src/petigaform.c:46-64, the last reference. *)
Definition IGAFormDestroy (m : fmem V) : res (fmem V) :=
  if negb (m_alive m) then RFault
  else match fold_left free_face faces6 (ROk m) with
       | ROk m1 => ROk (mk_fmem (m_next m1) (m_blk m1) false (m_dof m1) (m_value m1) (m_load m1) (m_visit m1))
       | r => r
       end.

(** * IGAFormReset *)
(** Sizes of PetscInt, PetscScalar (and its alignment), pointers and PetscBool on a platform. *)
Record abi := mk_abi { sz_int : Z; sz_scalar : Z; al_scalar : Z; sz_ptr : Z; sz_bool : Z }.
Definition align_up (x a : Z) : Z := (x + a - 1) / a * a.
(** sizeof(struct _IGAFormBC), include/petiga.h:220-225 *)
Definition sizeof_bc (p : abi) : Z :=
  align_up (align_up (sz_int p + 64 * sz_int p) (al_scalar p) + 64 * sz_scalar p) (Z.max (sz_int p) (al_scalar p)).
(** Layout of struct _n_IGAForm, include/petiga.h:261-270 *)
Definition off_ops (p : abi) : Z := align_up (sz_int p) (sz_ptr p).
Definition off_dof (p : abi) : Z := align_up (off_ops p + sz_ptr p) (sz_int p).
Definition off_value (p : abi) : Z := align_up (off_dof p + sz_int p) (sz_ptr p).
Definition off_load (p : abi) : Z := off_value p + 3 * 2 * sz_ptr p.
Definition off_visit (p : abi) : Z := align_up (off_load p + 3 * 2 * sz_ptr p) (sz_bool p).
Definition sizeof_form (p : abi) : Z := align_up (off_visit p + 3 * 2 * sz_bool p) (sz_ptr p).

(** src/petigaform.c:66-78.  PetscMemzero(form->value,3*2*sizeof(struct _IGAFormBC)): form->value is the array of six
    pointers inside the struct, so the bytes zeroed start there.  [room] is how many bytes behind the struct can be
    overwritten with impunity.  When that is enough the pointers are NULL afterwards. *)
Definition IGAFormReset (p : abi) (room : Z) (m : fmem V) : res (fmem V) :=
  if negb (m_alive m) then RFault
  else if (off_value p + 3 * 2 * sizeof_bc p <=? sizeof_form p + room) && (off_load p + 3 * 2 * sizeof_bc p <=? sizeof_form p + room)
  then ROk (mk_fmem (m_next m) (m_blk m) (m_alive m) (-1) (fun _ _ => None) (fun _ _ => None) (fun _ _ => false))
  else RFault.

(** A history of calls on a new form: None after undefined behaviour. *)
Definition frun (calls : list (Z * Z * bc_op V)) : option (fmem V) :=
  fold_left (fun r c => let '(dim, dof, op) := c in
               match r with
               | None => None
               | Some m => match fstep dim dof op m with ROk m' | RErr m' => Some m' | RFault => None end
               end) calls (Some IGAFormCreate).
End Form.
Arguments deref {V}. Arguments in64. Arguments fstep {V}. Arguments frun {V}. Arguments IGAFormCreate {V}.
Arguments IGAFormDestroy {V}. Arguments IGAFormReset {V}. Arguments store {V}. Arguments search {V}.
Arguments IGAFormBCSetEntry {V}. Arguments clear_table {V}. Arguments calloc {V}.

(** The conditions in a table, as the readers of src/petigaelem.c:1166-1212 see them. *)
Definition entries {V} (m : fmem V) (p : option Z) : list (Z * V) :=
  match deref m p with
  | None => []
  | Some b => map (fun k => (b_field b k, b_value b k)) (zseq 0 (b_count b))
  end.
