(** src/petigaopts.c: helpers on the options data base.  Definitions only.
    PETSc's data base is a map from names (without the dash, prefix included) to values, "" being an option without
    value, together with the stack of PetscOptionsPrefixPush.  Not modelled: names of different case, PETSc's limits on
    the length of names and the depth of the stack, and the [-no_] and [-options_monitor] forms. *)
From Coq Require Import String.
From Coq Require Import ZArith List Bool.
From Verif Require Import Prelude.
Import ListNotations.
Open Scope string_scope.

Record odb := mk_odb { o_map : string -> option string; o_stack : list string }.

(** PETSc: PetscOptionsPrefixPush, PetscOptionsPrefixPop; the top of the stack is the head of the list. *)
Definition prefix_push (p : string) (d : odb) : odb := mk_odb (o_map d) (p :: o_stack d).
Definition prefix_pop (d : odb) : odb := mk_odb (o_map d) (tl (o_stack d)).
(** PETSc: PetscOptionsSetValue(NULL,name,value): the name is put behind the prefixes on the stack. *)
Definition stack_prefix (d : odb) : string := fold_left (fun s p => p ++ s) (o_stack d) "".
Definition set_value (name value : string) (d : odb) : odb :=
  mk_odb (fun x => if x =? (stack_prefix d ++ name) then Some value else o_map d x) (o_stack d).
(** PETSc: PetscOptionsHasName(NULL,prefix,name,&flag); a NULL prefix is "". *)
Definition has_name (prefix name : string) (d : odb) : bool :=
  match o_map d (prefix ++ name) with Some _ => true | None => false end.
(** PETSc: PetscOptionsGetString and PetscStrncpy with room for 1024 characters. *)
Definition cut (s : string) : string := substring 0 1023 s.
Definition get_string (prefix name : string) (old : string) (d : odb) : string :=
  match o_map d (prefix ++ name) with Some v => cut v | None => old end.

(** src/petigaopts.c:3-25 ([prefix] is NULL there) *)
Definition IGAOptionsAlias (alias : string) (defval : option string) (name : string) (d : odb) : status * odb :=
  let value := "" in
  if has_name "" alias d then (Ok, set_value name (get_string "" alias value d) d)
  else match defval with
       | Some v => if has_name "" name d then (Ok, d) else (Ok, set_value name (cut v) d)
       | None => (Ok, d)
       end.

(** src/petigaopts.c:27-39 *)
Definition IGAOptionsDefault (prefix name value : string) (d : odb) : status * odb :=
  if has_name prefix name d then (Ok, d)
  else
    let d := if prefix =? "" then d else prefix_push prefix d in
    let d := set_value name value d in
    (Ok, if prefix =? "" then d else prefix_pop d).

(** src/petigaopts.c:41-49 *)
Definition IGAOptionsReject (prefix name : string) (d : odb) : status * odb :=
  if has_name prefix name d then (ErrRange, d) else (Ok, d).

(** src/petigaopts.c:58-64: what the static buffer holds on return; the caller gets its address, so that what a caller
    reads through the pointer is what the buffer holds at that time.  [None]: defval is NULL. *)
Definition IGAGetOptString (prefix name : string) (defval : option string) (d : odb) (buffer : string) : string :=
  let buffer := match defval with Some v => cut v | None => "" end in
  get_string prefix name buffer d.
(** A program that asks for several strings: the buffer after each call, the last one first. *)
Definition buffers (d : odb) (calls : list (string * string * option string)) (buffer : string) : list string :=
  fold_left (fun l c => let '(p, n, v) := c in IGAGetOptString p n v d (hd buffer l) :: l) calls [].
(** What the pointers of the calls read when all calls are done: all of them the same buffer. *)
Definition read_back (d : odb) (calls : list (string * string * option string)) (buffer : string) : list string :=
  map (fun _ => hd buffer (buffers d calls buffer)) calls.

(** src/petigaopts.c:51-56, 66-92: enumerations, booleans, integers, reals, scalars; [parse] is PETSc's conversion,
    [None] an error on which the program stops. *)
Definition IGAGetOpt {A} (parse : string -> option A) (prefix name : string) (defval : A) (d : odb) : option A :=
  match o_map d (prefix ++ name) with Some v => parse v | None => Some defval end.
