(** Platforms, and what a form without any condition is. *)
From Coq Require Import ZArith List Bool.
From Verif Require Import Prelude FrmModel.
Open Scope Z_scope.

Definition face (a s : Z) : Prop := 0 <= a < 3 /\ 0 <= s < 2.

(** Any platform PETSc runs on: integers and scalars of at least four bytes, pointers of at most eight. *)
Definition sane (p : abi) : Prop :=
  4 <= sz_int p <= 8 /\ 4 <= sz_scalar p /\ 1 <= al_scalar p /\ 4 <= sz_ptr p <= 8 /\ 1 <= sz_bool p <= 4.
(** Linux on x86-64, real double precision, 32 bit indices. *)
Definition x86_64 : abi := mk_abi 4 8 8 8 4.

(** The tables and flags of a form are empty and can be read. *)
Definition blank_form {V} (m : fmem V) : Prop :=
  m_alive m = true /\ forall a s, face a s ->
    (exists b, deref m (m_value m a s) = Some b /\ b_count b = 0) /\
    (exists b, deref m (m_load m a s) = Some b /\ b_count b = 0) /\ m_visit m a s = false.
