(** Object lifetime: who holds a reference to whom, when objects are freed.

    PetIGA's objects are heap blocks with a counter of references.  The PETSc objects (IGA, Vec, Mat, KSP, SNES, TS, DM)
    keep the counter in their header, the light ones (IGAAxis, IGARule, IGABasis, IGAForm, IGAElement, IGAPoint,
    IGAProbe) in a field [refct].  All destructors have the shape of IGADestroy (src/petiga.c:77-108):
    the caller's pointer is read and set to NULL, the counter goes down, and only when it reaches zero are the owned
    objects destroyed and the block freed.

    What of an object matters here: its counter, whether its block was freed, the owning pointers it contains ([slots])
    and the pointers it has copied without taking a reference ([weak]: the arrays of an IGA a probe keeps,
    src/petigaprobe.c:58-61).  Touching a freed block is a [Fault]. *)
From Coq Require Import ZArith List Bool Lia.
Import ListNotations.
Local Open Scope Z_scope.

(** Kinds of objects.  [KVec] stands for Vec and Mat, [KSolver] for KSP, SNES and TS; [KArr] is a plain array owned by an
    IGA (rationalW, geometryX: include/petiga.h, struct _p_IGA). *)
Inductive kind := KArr | KPoint | KAxis | KRule | KBasis | KForm | KElem | KIga | KDm | KVec | KSolver | KProbe.

Record obj := mk_obj { o_kind : kind; o_ref : Z; o_freed : bool; o_slots : list (option Z); o_weak : list Z }.
Record heap := mk_heap { h_next : Z; h_obj : Z -> obj }.

(** Result of a call: success, an error code (the heap as it was left), or undefined behaviour. *)
Inductive outcome (A : Type) := Done (a : A) (h : heap) | Failed (h : heap) | Fault.
Arguments Done {A}. Arguments Failed {A}. Arguments Fault {A}.

Definition M (A : Type) := heap -> outcome A.
Definition ret {A} (a : A) : M A := fun h => Done a h.
Definition err {A} : M A := fun h => Failed h.
Definition bind {A B} (m : M A) (f : A -> M B) : M B :=
  fun h => match m h with Done a h' => f a h' | Failed h' => Failed h' | Fault => Fault end.
Notation "x <- m ;; f" := (bind m (fun x => f)) (at level 61, m at next level, right associativity).
Notation "m ;; f" := (bind m (fun _ => f)) (at level 61, right associativity).

Definition put (x : Z) (o : obj) (h : heap) : heap :=
  mk_heap (h_next h) (fun z => if z =? x then o else h_obj h z).

Definition blank : obj := mk_obj KArr 0 true [] [].

(** PetscHeaderCreate / PetscCalloc1 + [refct = 1] (src/petiga.c:45, src/petigaaxis.c:9-10, src/petigaform.c:32-33,
    src/petigaprobe.c:35-36): a fresh block, all pointers NULL. *)
Definition alloc (k : kind) (n : nat) : M Z := fun h =>
  let x := h_next h in
  Done x (mk_heap (x + 1) (fun z => if z =? x then mk_obj k 1 false (repeat None n) [] else h_obj h z)).

(** PetscObjectReference, IGAFormReference (src/petigaform.c:80-86), IGAProbeReference (src/petigaprobe.c:178):
    [refct++]. *)
Definition reference (x : Z) : M unit := fun h =>
  let o := h_obj h x in
  if o_freed o then Fault
  else Done tt (put x (mk_obj (o_kind o) (o_ref o + 1) false (o_slots o) (o_weak o)) h).

(** Reading and writing a pointer inside an object. *)
Definition get_slot (x : Z) (n : nat) : M (option Z) := fun h =>
  let o := h_obj h x in
  if o_freed o then Fault else Done (nth n (o_slots o) None) h.

Fixpoint list_set (l : list (option Z)) (n : nat) (v : option Z) : list (option Z) :=
  match l, n with
  | [], _ => []
  | _ :: t, O => v :: t
  | a :: t, S m => a :: list_set t m v
  end.

Definition set_slot (x : Z) (n : nat) (v : option Z) : M unit := fun h =>
  let o := h_obj h x in
  if o_freed o then Fault
  else Done tt (put x (mk_obj (o_kind o) (o_ref o) false (list_set (o_slots o) n v) (o_weak o)) h).

Definition set_weak (x : Z) (w : list Z) : M unit := fun h =>
  let o := h_obj h x in
  if o_freed o then Fault else Done tt (put x (mk_obj (o_kind o) (o_ref o) false (o_slots o) w) h).

(** Touching the block of an object without changing it. *)
Definition touch (x : Z) : M unit := fun h => if o_freed (h_obj h x) then Fault else Done tt h.

(** The destructors (src/petiga.c:77-108, src/petigaform.c:46-64, src/petigaelem.c:18-33, src/petigaprobe.c:121-133,
    src/petigadm.c:189-197, PetscObjectDestroy for the composed objects): [if (--refct > 0) return], then every owned
    pointer is destroyed in turn (NULL is skipped) and the block is freed.  Simplified: the model marks the block as freed
    before releasing what it owned, so a destructor of an owned object that looked back would show as a Fault.
    [fuel] bounds the depth of nesting. *)
Fixpoint destroy (fuel : nat) (x : Z) : M unit :=
  match fuel with
  | O => fun _ => Fault
  | S f => fun h =>
      let o := h_obj h x in
      if o_freed o then Fault
      else if 1 <? o_ref o
      then Done tt (put x (mk_obj (o_kind o) (o_ref o - 1) false (o_slots o) (o_weak o)) h)
      else (fix release (l : list (option Z)) : M unit :=
              match l with
              | [] => ret tt
              | None :: t => release t
              | Some y :: t => destroy f y ;; release t
              end) (o_slots o) (put x (mk_obj (o_kind o) 0 true (o_slots o) (o_weak o)) h)
  end.

(** Depth used by every call below; C109 proves it is enough. *)
Definition depth : nat := 8%nat.
Definition XDestroy (v : option Z) : M unit := match v with None => ret tt | Some x => destroy depth x end.

(** * The API *)

(** Where an IGA keeps what: axis, rule, basis of the three directions (0..8), form, iterator, the arrays of weights and
    of control points (include/petiga.h, struct _p_IGA). *)
Definition iga_slots : nat := 13%nat.
Definition s_form : nat := 9%nat.
Definition s_iter : nat := 10%nat.
Definition s_ratW : nat := 11%nat.
Definition s_geoX : nat := 12%nat.

(** A freshly created object stored in place [n] of [i], as in [IGAAxisCreate(&iga->axis[i])]. *)
Definition attach (i : Z) (n : nat) (k : kind) : M unit := a <- alloc k 0;; set_slot i n (Some a).

(** src/petigaelem.c:3-16 *)
Definition IGAElementCreate : M Z := e <- alloc KElem 1;; attach e 0 KPoint;; ret e.

(** src/petiga.c:32-63; the direction [d] of the loop in lines 54-58. *)
Definition iga_create_dir (i : Z) (d : nat) : M unit :=
  attach i (3 * d) KAxis;; attach i (3 * d + 1) KRule;; attach i (3 * d + 2) KBasis.

Definition IGACreate : M Z :=
  i <- alloc KIga iga_slots;;
  iga_create_dir i 0;; iga_create_dir i 1;; iga_create_dir i 2;;
  attach i s_form KForm;;
  e <- IGAElementCreate;; set_slot i s_iter (Some e);;
  ret i.

(** src/petigaform.c:25-43 *)
Definition IGAFormCreate : M Z := alloc KForm 0.

(** src/petigaform.c:12-23 *)
Definition IGASetForm (i f : Z) : M unit :=
  old <- get_slot i s_form;;
  if match old with Some g => f =? g | None => false end then ret tt
  else reference f;;
       old <- get_slot i s_form;; set_slot i s_form None;; XDestroy old;;
       set_slot i s_form (Some f).

(** PetscFree(iga->p): read, free, set to NULL. *)
Definition free_array (i : Z) (n : nat) : M unit :=
  v <- get_slot i n;; set_slot i n None;; XDestroy v.

(** src/petiga.c:110-147: of the arrays a probe can know, IGAReset frees both. *)
Definition IGAReset (i : Z) : M unit := free_array i s_ratW;; free_array i s_geoX.

(** src/petigaio.c:174-190, when the dimension is another one than before. *)
Definition IGASetGeometryDim (i : Z) : M unit := free_array i s_geoX;; free_array i s_ratW.

(** src/petigaio.c:262-265 when the number of points is that of the grid: arrays already there are filled again. *)
Definition ensure_array (i : Z) (n : nat) : M unit :=
  v <- get_slot i n;;
  match v with Some _ => ret tt | None => attach i n KArr end.
Definition IGALoadGeometry (i : Z) : M unit := ensure_array i s_geoX;; ensure_array i s_ratW.

(** src/petiga.c:1495-1565: a new IGA with copies of axes, rules and arrays; nothing is shared. *)
Definition copy_array (i j : Z) (n : nat) : M unit :=
  v <- get_slot i n;;
  match v with None => ret tt | Some a => touch a;; attach j n KArr end.
Definition IGAClone (i : Z) : M Z :=
  j <- IGACreate;; copy_array i j s_ratW;; copy_array i j s_geoX;; ret j.

(** PetscObjectCompose(x,"IGA",iga) into the empty place [n] of a new object, VecSetDM/MatSetDM/KSPSetDM on a new object,
    SNESSetFunction and the like: take a reference and store it. *)
Definition hold (x : Z) (n : nat) (y : Z) : M unit := reference y;; set_slot x n (Some y).

(** IGACreateVec (src/petigavec.c:77-93), IGACreateMat (src/petigamat.c:353-405), VecDuplicate_IGA (src/petigavec.c:5-21:
    again IGACreateVec).  Slot 0: the IGA; slot 1: the DM, when made by a DM. *)
Definition IGACreateVec (i : Z) : M Z := v <- alloc KVec 2;; hold v 0 i;; ret v.

(** src/petigavec.c:5-21 and src/petigamat.c:159-178: the IGA is looked up in the vector. *)
Definition VecDuplicate (v : Z) : M Z :=
  i <- get_slot v 0;; match i with None => err | Some i => IGACreateVec i end.

(** src/petigaksp.c:386-403 *)
Definition IGACreateKSP (i : Z) : M Z := k <- alloc KSolver 5;; hold k 0 i;; ret k.

(** A vector or matrix made for a solver: created, handed over, the caller's reference given back. *)
Definition give_new (k : Z) (n : nat) (i : Z) : M unit :=
  v <- IGACreateVec i;; hold k n v;; destroy depth v.

(** src/petigasnes.c:207-235: function vector and Jacobian matrix. *)
Definition IGACreateSNES (i : Z) : M Z :=
  k <- alloc KSolver 5;; hold k 0 i;; give_new k 1 i;; give_new k 2 i;; ret k.

(** src/petigats.c:593-623 *)
Definition IGACreateTS (i : Z) : M Z :=
  k <- alloc KSolver 5;; hold k 0 i;; give_new k 1 i;; give_new k 2 i;; give_new k 3 i;; ret k.

(** src/petigats2.c:247-280: two solution vectors, created before either is handed over. *)
Definition IGACreateTS2 (i : Z) : M Z :=
  k <- alloc KSolver 5;; hold k 0 i;;
  u <- IGACreateVec i;; v <- IGACreateVec i;;
  hold k 1 u;; hold k 2 v;; destroy depth u;; destroy depth v;;
  give_new k 3 i;; give_new k 4 i;; ret k.

(** src/petigadm.c:10-27 *)
Definition DMIGACreate (i : Z) : M Z := d <- alloc KDm 1;; hold d 0 i;; ret d.

(** DMCreate + DMSetType(DMIGA): no IGA yet. *)
Definition DMCreate : M Z := alloc KDm 1.

(** src/petigadm.c:29-45: reference the new one, IGADestroy on the local copy of the old one, store. *)
Definition DMIGASetIGA (d i : Z) : M unit :=
  old <- get_slot d 0;;
  if match old with Some j => negb (j =? i) | None => false end then err
  else reference i;; XDestroy old;; set_slot d 0 (Some i).

(** src/petigadm.c:60-79, as called by DMSetUp_IGA (215-231): an IGA is created when there is none. *)
Definition DMSetUp (d : Z) : M unit :=
  old <- get_slot d 0;;
  match old with Some i => touch i | None => i <- IGACreate;; set_slot d 0 (Some i) end.

(** src/petigadm.c:141-155, 173-187 *)
Definition DMCreateGlobalVector (d : Z) : M Z :=
  i <- get_slot d 0;;
  match i with
  | None => err
  | Some i => v <- IGACreateVec i;; hold v 1 d;; ret v
  end.

(** src/petigadm.c:259-275; the new DM exists already (DMClone made it). *)
Definition DMClone (d : Z) : M Z :=
  e <- alloc KDm 1;;
  i <- get_slot d 0;;
  match i with
  | None => err
  | Some i => n <- IGAClone i;; DMIGASetIGA e n;; destroy depth n;; DMSetUp e;; ret e
  end.

(** DMCreateCoordinateDM_IGA (src/petigadm.c:277-289) and the second half of DMCreateSubDM_IGA (322-331). *)
Definition DMCreateSubDM (d : Z) : M Z :=
  i <- get_slot d 0;;
  match i with
  | None => err
  | Some i => n <- IGAClone i;; e <- DMIGACreate n;; destroy depth n;; ret e
  end.

(** KSPSetIGA (src/petigaksp.c:238-255) and SNESSetIGA (src/petigasnes.c:175-195) on a new solver. *)
Definition KSPSetIGA (i : Z) : M Z :=
  k <- alloc KSolver 5;; hold k 0 i;;
  d <- DMIGACreate i;; hold k 1 d;; destroy depth d;; ret k.

(** TSSetIGA (src/petigats.c:538-564) on a new time stepper. *)
Definition TSSetIGA (i : Z) : M Z :=
  k <- alloc KSolver 5;; hold k 0 i;;
  d <- DMIGACreate i;; hold k 1 d;;
  v <- DMCreateGlobalVector d;; hold k 2 v;; destroy depth v;;
  destroy depth d;; ret k.

(** src/petigaprobe.c:208-221.  Slot 0: gvec, slot 1: iga. *)
Definition IGAProbeSetVec (p v : Z) : M unit :=
  reference v;; old <- get_slot p 0;; set_slot p 0 None;; XDestroy old;; set_slot p 0 (Some v).

Definition opt_list (v : option Z) : list Z := match v with Some a => [a] | None => [] end.

(** src/petigaprobe.c:23-119.  The arrays of weights and control points are copied as pointers (58-61); simplified: the
    array of weights also when the geometry is not rational. *)
Definition IGAProbeCreate (i : Z) (v : option Z) : M Z :=
  p <- alloc KProbe 2;; hold p 1 i;;
  w <- get_slot i s_ratW;; x <- get_slot i s_geoX;;
  set_weak p (opt_list w ++ opt_list x);;
  match v with None => ret p | Some v => IGAProbeSetVec p v;; ret p end.

Fixpoint touch_all (l : list Z) : M unit := match l with [] => ret tt | a :: t => touch a;; touch_all t end.

(** IGAProbeSetPoint (src/petigaprobe.c:223-333): reads the probe, its IGA and the arrays. *)
Definition IGAProbeSetPoint (p : Z) : M unit := fun h =>
  let o := h_obj h p in
  if o_freed o then Fault
  else match nth 1 (o_slots o) None with
       | None => Fault
       | Some i => (touch i;; touch_all (o_weak o)) h
       end.

Inductive cmd :=
| CIgaCreate | CIgaClone (i : Z) | CIgaReset (i : Z) | CIgaSetGeometryDim (i : Z) | CIgaLoadGeometry (i : Z)
| CFormCreate | CIgaSetForm (i f : Z)
| CIgaCreateVec (i : Z) | CVecDuplicate (v : Z)
| CIgaCreateKSP (i : Z) | CIgaCreateSNES (i : Z) | CIgaCreateTS (i : Z) | CIgaCreateTS2 (i : Z)
| CKspSetIGA (i : Z) | CTsSetIGA (i : Z)
| CDmCreate | CDmIgaCreate (i : Z) | CDmSetIGA (d i : Z) | CDmSetUp (d : Z) | CDmCreateVec (d : Z)
| CDmClone (d : Z) | CDmCreateSub (d : Z)
| CProbeCreate (i : Z) (v : option Z) | CProbeSetVec (p v : Z) | CProbeSetPoint (p : Z)
| CReference (x : Z) | CDestroy (x : Z).

Definition quiet (m : M unit) : M (option Z) := m;; ret None.
Definition fresh (m : M Z) : M (option Z) := x <- m;; ret (Some x).

(** The object returned to the caller, if any. *)
Definition api (c : cmd) : M (option Z) :=
  match c with
  | CIgaCreate => fresh IGACreate
  | CIgaClone i => fresh (IGAClone i)
  | CIgaReset i => quiet (IGAReset i)
  | CIgaSetGeometryDim i => quiet (IGASetGeometryDim i)
  | CIgaLoadGeometry i => quiet (IGALoadGeometry i)
  | CFormCreate => fresh IGAFormCreate
  | CIgaSetForm i f => quiet (IGASetForm i f)
  | CIgaCreateVec i => fresh (IGACreateVec i)
  | CVecDuplicate v => fresh (VecDuplicate v)
  | CIgaCreateKSP i => fresh (IGACreateKSP i)
  | CIgaCreateSNES i => fresh (IGACreateSNES i)
  | CIgaCreateTS i => fresh (IGACreateTS i)
  | CIgaCreateTS2 i => fresh (IGACreateTS2 i)
  | CKspSetIGA i => fresh (KSPSetIGA i)
  | CTsSetIGA i => fresh (TSSetIGA i)
  | CDmCreate => fresh DMCreate
  | CDmIgaCreate i => fresh (DMIGACreate i)
  | CDmSetIGA d i => quiet (DMIGASetIGA d i)
  | CDmSetUp d => quiet (DMSetUp d)
  | CDmCreateVec d => fresh (DMCreateGlobalVector d)
  | CDmClone d => fresh (DMClone d)
  | CDmCreateSub d => fresh (DMCreateSubDM d)
  | CProbeCreate i v => fresh (IGAProbeCreate i v)
  | CProbeSetVec p v => quiet (IGAProbeSetVec p v)
  | CProbeSetPoint p => quiet (IGAProbeSetPoint p)
  | CReference x => quiet (reference x)
  | CDestroy x => quiet (destroy depth x)
  end.

(** Before the first call. *)
Definition heap0 : heap := mk_heap 0 (fun _ => blank).
