(** Precedence of option values; independent of the code. *)
From Coq Require Import String List.
Import ListNotations.

(** The first value that is there. *)
Fixpoint first_given (l : list (option string)) : option string :=
  match l with
  | [] => None
  | Some v :: _ => Some v
  | None :: l => first_given l
  end.
(** The values that a list of (name, value) pairs gives a name, in order. *)
Definition values_of (x : string) (l : list (string * string)) : list (option string) :=
  map (fun p => if string_dec (fst p) x then Some (snd p) else None) l.
(** Values that fit PetIGA's buffers. *)
Definition fits (o : option string) : Prop := forall v, o = Some v -> String.length v <= 1023.
