(** What the Fortran access to a point should give. *)
From Coq Require Import ZArith List Bool Reals.
From Verif Require Import Prelude GridSpec.
Import ListNotations.
Open Scope Z_scope.

(** Element X[i1]...[ik] of a C array X[n1]...[nk]. *)
Definition row (dims idx : list Z) : Z := fold_left (fun x di => x * fst di + snd di) (combine dims idx) 0.

(** Indices of a Fortran array, and the same counted from zero in the order of C. *)
Definition valid (shape idx : list Z) : Prop := Forall2 (fun d i => 1 <= i <= d) shape idx.
Definition c_order (idx : list Z) : list Z := rev (map (fun i => i - 1) idx).
