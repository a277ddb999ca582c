(** What the command line options of an IGA ask for, without reference to how they are processed. *)
From Coq Require Import ZArith List Bool Reals.
From Verif Require Import Prelude RealOrd AxisModel AxisInitModel RuleModel OptModel.
Import ListNotations.
Open Scope Z_scope.

(** A list of values, one per direction: directions beyond the list get the first value, without values the default. *)
Definition pick {A} (default : A) (o : option (list A)) (i : Z) : A :=
  match o with Some (x :: l) => nth (Z.to_nat i) (x :: l) x | _ => default end.

(** A list of types: a single value is for all directions, directions beyond a longer list keep what they have. *)
Definition per_direction {A} (own : A) (o : option (list A)) (i : Z) : A :=
  match o with Some [x] => x | Some l => nth (Z.to_nat i) l own | None => own end.

(** -iga_periodic without value is for all directions. *)
Definition asked_periodic (own : bool) (o : option (list bool)) (i : Z) : bool :=
  match o with Some [] => true | _ => per_direction own o i end.

Fixpoint pairs {A} (l : list A) : list (A * A) :=
  match l with a :: b :: l => (a, b) :: pairs l | _ => [] end.

Definition or_else (x default : Z) : Z := if 0 <? x then x else default.

(** The axis is what IGAAxisSetPeriodic, IGAAxisSetDegree and IGAAxisInitUniform with these arguments make of a new
    axis (see C03 and C04 for what that is). *)
Definition built (per : bool) (p N : Z) (lim : R * R) (C : Z) (a : axis Rord) : Prop :=
  exists U0 a1 a2,
    axis_set_periodic per (@axis_create Rord (-1/2)%R (1/2)%R) = (Ok, a1) /\
    axis_set_degree p a1 = (Ok, a2) /\
    axis_init_uniform N (fst lim) (snd lim) C U0 a2 = (Ok, a).

(** An axis that has been given a degree and knots. *)
Definition has_mesh (a : axis Rord) : Prop := ax_p a <> 0 /\ ax_m a <> 1.

(** Same axis: contents of the knot array beyond its end do not matter. *)
Definition same_axis (a b : axis Rord) : Prop :=
  ax_periodic a = ax_periodic b /\ ax_p a = ax_p b /\ ax_m a = ax_m b /\ ax_nnp a = ax_nnp b /\ ax_nel a = ax_nel b /\
  ax_span a = ax_span b /\ forall i, 0 <= i <= ax_m a -> ax_U a i = ax_U b i.

Definition same_iga (g h : oiga) : Prop :=
  og_dim g = og_dim h /\ og_dof g = og_dof h /\ og_order g = og_order h /\ og_colloc g = og_colloc h /\
  (forall i, og_procs g i = og_procs h i) /\ (forall i, same_axis (og_axis g i) (og_axis h i)) /\
  (forall i, og_btype g i = og_btype h i) /\ (forall i, og_rule g i = og_rule h i) /\
  og_setup g = og_setup h /\ og_stage g = og_stage h.

(** The quadrature rules are usable: their number of points is one their type has. *)
Definition rules_available (lit : Z -> R) (g : oiga) : Prop :=
  forall i, 0 < ru_nqp (og_rule g i) -> compute_rule lit (ru_type (og_rule g i)) (ru_nqp (og_rule g i)) <> Some None.
