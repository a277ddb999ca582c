(** Model of the point loop: the pointers handed to the user at every quadrature point
    (src/petigaelem.c IGAElementBeginPoint, IGAElementNextPoint, IGAElementEndPoint and the
    allocations of IGAElementInit).
    A pointer is a buffer name and an offset counted in scalars.  Simplified: the work-array counters
    nvec/nmat reset at petigaelem.c:493-494 belong to C49 and are not part of this state. *)
From Coq Require Import ZArith List Lia Bool.
Import ListNotations.
Local Open Scope Z_scope.

(** Buffers owned by an element: include/petiga.h struct _n_IGAElement. *)
Inductive buffer := BWeight | BDetJac | BBasis (k : Z) | BShape (k : Z) | BMapU (k : Z) | BMapX (k : Z) | BNormal | BDetX | BDetS.
(** Pointer members of a point: include/petiga.h:664-695. *)
Inductive field := FWeight | FDetJac | FPoint | FNormal | FBasis (k : Z) | FShape (k : Z) | FMapU (k : Z) | FMapX (k : Z) | FDetX | FDetS.

(** dim1..dim4 and nsd1..nsd4 of src/petigaelem.c:481-488; index 0 is the missing factor. *)
Definition pw (d k : Z) : Z :=
  let d1 := d in let d2 := d*d1 in let d3 := d*d2 in let d4 := d*d3 in
  if k =? 0 then 1 else if k =? 1 then d1 else if k =? 2 then d2 else if k =? 3 then d3 else d4.

(** src/petigaelem.c:201-234: lengths passed to PetscMalloc1. *)
Definition alloc_size (nqp nen dim nsd : Z) (b : buffer) : Z :=
  match b with
  | BWeight | BDetJac | BDetX | BDetS => nqp
  | BBasis k => nqp*nen*pw dim k
  | BShape k => nqp*nen*pw nsd k
  | BMapU k => nqp*dim*pw nsd k
  | BMapX k => nqp*nsd*pw dim k
  | BNormal => nqp*nsd
  end.

Record pstate := mk_pstate { p_index : Z; p_ptr : field -> buffer * Z }.

(** src/petigaelem.c:458-475: the pointers keep whatever value they had. *)
Definition begin_point (st : pstate) : pstate := mk_pstate (-1) (p_ptr st).

(** src/petigaelem.c:500-532: increments. *)
Definition advance (nen dim nsd : Z) (f : field) : Z :=
  match f with
  | FWeight | FDetJac | FDetX | FDetS => 1
  | FPoint => dim
  | FNormal => nsd
  | FBasis k => nen*pw dim k
  | FShape k => nen*pw nsd k
  | FMapU k => dim*pw nsd k
  | FMapX k => nsd*pw dim k
  end.
(** src/petigaelem.c:536-583: starting values. *)
Definition start_ptr (geometry : bool) (dim nsd : Z) (f : field) : buffer :=
  match f with
  | FWeight => BWeight | FDetJac => BDetJac
  | FPoint => BMapU 0 | FNormal => BNormal
  | FBasis k => BBasis k
  | FShape k => if geometry && (dim =? nsd) then BShape k else BBasis k
  | FMapU k => BMapU k
  | FMapX k => if geometry then BMapX k else BMapU k
  | FDetX => BDetX | FDetS => BDetS
  end.
(** src/petigaelem.c:476-592 IGAElementNextPoint: the result and the new state. *)
Definition next_point (count nen dim nsd : Z) (geometry : bool) (st : pstate) : bool * pstate :=
  let index := p_index st + 1 in
  if index =? 0 then (true, mk_pstate index (fun f => (start_ptr geometry dim nsd f, 0)))
  else if index >=? count then (false, mk_pstate (-1) (p_ptr st))
  else (true, mk_pstate index (fun f => (fst (p_ptr st f), snd (p_ptr st f) + advance nen dim nsd f))).

(** The results of n successive calls and the final state. *)
Fixpoint point_loop (n : nat) (count nen dim nsd : Z) (geometry : bool) (st : pstate) : list bool * pstate :=
  match n with
  | O => ([], st)
  | S n' => let '(bs, st1) := point_loop n' count nen dim nsd geometry st in
            let '(b, st2) := next_point count nen dim nsd geometry st1 in (bs ++ [b], st2)
  end.
(** src/petigaelem.c:594-605: PETSC_ERR_PLIB when the loop was left early; the index is reset in any case. *)
Definition end_point (st : pstate) : bool * pstate := (p_index st =? -1, mk_pstate (-1) (p_ptr st)).
