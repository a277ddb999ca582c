(** What IGAView should print. *)
From Coq Require Import ZArith List Bool.
From Verif Require Import Prelude AxisModel AxisSpec VwModel.
Import ListNotations.
Open Scope Z_scope.

Section ViewSpec.
  Context {O : KnotOrd}.

  (** c is the continuity of the functions across a knot inside the domain; on a periodic axis the first knot of
      the domain is one of them. *)
  Definition cont_at (per : bool) (p m : Z) (U : Z -> O) (c : Z) : Prop :=
    exists i, 1 <= i <= m - 1 /\ (if per then kle (U p) (U i) else klt (U p) (U i)) /\ klt (U i) (U (m - p)) /\
              c = p - count_eq U 1 (m - 1) (U i).

  (** The text for a set of numbers: their range. *)
  Definition describes_range (P : Z -> Prop) (s : shown) : Prop :=
    match s with
    | Star => forall c, ~ P c
    | One a => P a /\ forall c, P c -> c = a
    | Range a b => a < b /\ P a /\ P b /\ forall c, P c -> a <= c <= b
    end.

  (** The last knot of a periodic axis is as often there as the first. *)
  Definition seam (p m : Z) (U : Z -> O) : Prop :=
    count_eq U 1 (m - 1) (U p) = count_eq U 1 (m - 1) (U (m - p)).
End ViewSpec.
