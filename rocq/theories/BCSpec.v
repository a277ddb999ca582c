(** What boundary conditions mean. *)
From Coq Require Import ZArith List Bool Reals.
From Verif Require Import Prelude Box GridSpec ElemSpec BCModel.
Import ListNotations.
Open Scope Z_scope.

(** * Tables: the meaning of a history of calls *)
(** A call is legal when the axis, side and field exist; the field and axis are further restricted by the
    IGA's dof and dim once those are set (IGASetBoundary*, not IGAFormClearBoundary). *)
Definition legal {V} (dim dof : Z) (op : bc_op V) : Prop :=
  match op with
  | SetValue a s c _ | SetLoad a s c _ =>
      0 <= a < 3 /\ (0 < dim -> a < dim) /\ 0 <= s < 2 /\ 0 <= c < 64 /\ (0 < dof -> c < dof)
  | SetForm a s _ => 0 <= a < 3 /\ (0 < dim -> a < dim) /\ 0 <= s < 2
  | Clear a s => 0 <= a < 3 /\ 0 <= s < 2
  end.

(** [last_written writes a s c v calls]: some legal call of the history gave face (a,s), field c the value v
    and no later legal call rewrote it or cleared the face.  [writes] recognises the calls of one kind. *)
Definition call V : Type := (Z * Z * bc_op V)%type.
Definition legal_call {V} (x : call V) : Prop := let '(dim, dof, op) := x in legal dim dof op.
Inductive last_written {V W} (writes : bc_op V -> option (Z * Z * Z * W)) (a s c : Z) (v : W) : list (call V) -> Prop :=
| LW_here : forall calls x, legal_call x -> writes (snd x) = Some (a, s, c, v) -> last_written writes a s c v (calls ++ [x])
| LW_later : forall calls x, last_written writes a s c v calls ->
    ((exists w, writes (snd x) = Some (a, s, c, w)) \/ snd x = Clear a s -> ~ legal_call x) ->
    last_written writes a s c v (calls ++ [x]).
Definition writes_value {V} (op : bc_op V) := match op with SetValue a s c v => Some (a, s, c, v) | _ => None end.
Definition writes_load {V} (op : bc_op V) := match op with SetLoad a s c v => Some (a, s, c, v) | _ => None end.
Definition writes_form {V} (op : bc_op V) := match op with SetForm a s b => Some (a, s, 0, b) | _ => None end.

(** * Elements *)
Definition lookup {V} (c : Z) (l : list (Z * V)) : option V := option_map snd (find (fun e => fst e =? c) l).

(** The faces of the domain in the order the library documents precedence: a later face wins. *)
Definition faces (dim : Z) : list (Z * Z) := flat_map (fun d => [(d, 0); (d, 1)]) (zseq 0 dim).

Section ElemBC.
  Variable dim dof : Z.
  Variable periodic : Z -> bool.
  Variables sizes ID nen : Z -> Z.
  Variable value load : Z -> Z -> list (Z * R).
  Variable table : option (Z -> R).
  Variable mapping : Z -> Z.
  Variable area : Z -> Z -> R.

  (** Local node [t] of element [ID] lies on face (d,s). *)
  Definition on_face (t : triple) (f : Z * Z) : bool :=
    let '(d, s) := f in
    negb (periodic d) && (if s =? 0 then (ID d =? 0) && (coord t d =? 0)
                          else (ID d =? sizes d - 1) && (coord t d =? nen d - 1)).
  (** Prescribed value of component c at local node t: that of the last face through t that constrains c
      (the fix table's value when there is one). *)
  Definition prescribed (t : triple) (c : Z) : option R :=
    fold_left (fun cur f => if on_face t f then
        match lookup c (value (fst f) (snd f)) with
        | Some v => Some (match table with Some T => T (c + mapping (lin nen t) * dof) | None => v end)
        | None => cur
        end else cur) (faces dim) None.
  (** Prescribed flux: sum over the faces through t that load c. *)
  Definition loaded (t : triple) (c : Z) : option R :=
    fold_left (fun cur f => if on_face t f then
        match lookup c (load (fst f) (snd f)) with
        | Some v => Some ((match cur with Some w => w | None => 0 end) + v * area (fst f) (snd f))%R
        | None => cur
        end else cur) (faces dim) None.
End ElemBC.

(** The same for a node of the whole grid: face (d,0) is the lowest coordinate, face (d,1) the highest. *)
Definition node_on_face (periodic : Z -> bool) (N : Z -> Z) (t : triple) (f : Z * Z) : bool :=
  let '(d, s) := f in negb (periodic d) && (coord t d =? (if s =? 0 then 0 else N d - 1)).
Definition node_prescribed (dim : Z) (periodic : Z -> bool) (N : Z -> Z) (value : Z -> Z -> list (Z * R))
    (table : option (triple -> Z -> R)) (t : triple) (c : Z) : option R :=
  fold_left (fun cur f => if node_on_face periodic N t f then
      match lookup c (value (fst f) (snd f)) with
      | Some v => Some (match table with Some T => T t c | None => v end)
      | None => cur
      end else cur) (faces dim) None.

(** * Linear systems *)
(** Row [i] of an n x n system with matrix K (row major), right-hand side F, at u. *)
Definition mat_row (n : Z) (K : Z -> R) (u : Z -> R) (i : Z) : R := rsum (fun j => K (i*n + j)%Z * u j)%R (zseq 0 n).
Definition constrained (fix_ : list (Z * R)) (i : Z) : Prop := exists v, In (i, v) fix_.

(** Row (t,c) of an assembled matrix applied to nodal values x. *)
Definition node_row (N : Z -> Z) (dof : Z) (M : triple -> Z -> triple -> Z -> R) (x : nodal) (t : triple) (c : Z) : R :=
  rsum (fun u => rsum (fun d => M t c u d * x u d)%R (zseq 0 dof)) (box zero3 N).
