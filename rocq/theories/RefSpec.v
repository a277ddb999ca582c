(** What a caller is promised about the lifetime of objects; stated with the user's own references only. *)
From Coq Require Import ZArith List Bool Lia.
Import ListNotations.
From Verif Require Import RefModel.
Local Open Scope Z_scope.

(** How many references to each object the calling program holds. *)
Definition owner := Z -> Z.
Definition plus (u : owner) (x d : Z) : owner := fun z => if z =? x then u z + d else u z.

(** An object is of use to the program if the program holds it, or if something of use points to it. *)
Inductive reach (own : owner) (h : heap) : Z -> Prop :=
| reach_own x : 0 < own x -> reach own h x
| reach_slot x y : reach own h x -> In (Some y) (o_slots (h_obj h x)) -> reach own h y.

Definition arg (own : owner) (h : heap) (k : kind) (x : Z) : Prop := reach own h x /\ o_kind (h_obj h x) = k.

(** What the program may do: pass objects it can reach and that are of the right kind, and give back references it
    holds.  (Plain arrays are never referenced by programs.) *)
Definition legal (own : owner) (h : heap) (c : cmd) : Prop :=
  match c with
  | CIgaCreate | CFormCreate | CDmCreate => True
  | CIgaClone i | CIgaReset i | CIgaSetGeometryDim i | CIgaLoadGeometry i | CIgaCreateVec i | CIgaCreateKSP i
  | CIgaCreateSNES i | CIgaCreateTS i | CIgaCreateTS2 i | CKspSetIGA i | CTsSetIGA i | CDmIgaCreate i =>
      arg own h KIga i
  | CIgaSetForm i f => arg own h KIga i /\ arg own h KForm f
  | CVecDuplicate v => arg own h KVec v
  | CDmSetIGA d i => arg own h KDm d /\ arg own h KIga i
  | CDmSetUp d | CDmCreateVec d | CDmClone d | CDmCreateSub d => arg own h KDm d
  | CProbeCreate i v => arg own h KIga i /\ match v with Some v => arg own h KVec v | None => True end
  | CProbeSetVec p v => arg own h KProbe p /\ arg own h KVec v
  | CProbeSetPoint p => arg own h KProbe p
  | CReference x => reach own h x /\ o_kind (h_obj h x) <> KArr
  | CDestroy x => 0 < own x
  end.

(** What the program holds after a call: one more reference to the object referenced or created, one less to the one
    destroyed. *)
Definition own_after (own : owner) (c : cmd) (r : option Z) : owner :=
  match c with
  | CReference x => plus own x 1
  | CDestroy x => plus own x (-1)
  | _ => match r with Some x => plus own x 1 | None => own end
  end.

(** The states a program can be in that makes legal calls out of [P] only and stops at the first error. *)
Inductive run (P : cmd -> Prop) : heap -> owner -> Prop :=
| run_start : run P heap0 (fun _ => 0)
| run_call h own c r h' :
    run P h own -> P c -> legal own h c -> api c h = Done r h' -> run P h' (own_after own c r).

(** Calls that give up the arrays of an IGA. *)
Definition frees_arrays (c : cmd) : Prop :=
  match c with CIgaReset _ | CIgaSetGeometryDim _ => True | _ => False end.
Definition sets_point (c : cmd) : Prop := match c with CProbeSetPoint _ => True | _ => False end.

(** The IGA from which a call makes its result. *)
Definition made_from (c : cmd) : option Z :=
  match c with
  | CIgaCreateVec i | CIgaCreateKSP i | CIgaCreateSNES i | CIgaCreateTS i | CIgaCreateTS2 i | CKspSetIGA i | CTsSetIGA i
  | CDmIgaCreate i | CProbeCreate i _ => Some i
  | _ => None
  end.
