(** The overlap a user asks for; no reference to the model. *)
From Coq Require Import ZArith List.
Import ListNotations.
Open Scope Z_scope.

(** Value for direction d of a list of one to three values: missing ones are as the first. *)
Definition given_for (l : list Z) (d : Z) : Z := nth (Z.to_nat d) l (hd 0 l).
(** The last time the option was given counts; without, nothing is asked for. *)
Definition asked (reads : list (option (list Z))) (d : Z) : option Z :=
  fold_left (fun acc g => match g with Some l => Some (given_for l d) | None => acc end) reads None.
(** Half the degree unless a value that is not negative is asked for, and never more than the degree. *)
Definition proper_overlap (p : Z) (a : option Z) (o : Z) : Prop :=
  match a with Some v => (v < 0 -> o = p / 2) /\ (0 <= v -> o = Z.min v p) | None => o = p / 2 end.
