(** Specification of quadrature: polynomials, integrals, exactness. *)
From Coq Require Import Reals List ZArith Lra.
From Coquelicot Require Import Coquelicot.
From Verif Require Import RuleModel.
Import ListNotations.
Open Scope R_scope.

(** Polynomial with coefficients c0, c1, ... (lowest degree first) and its value. *)
Fixpoint peval (c : list R) (x : R) : R :=
  match c with [] => 0 | a :: c' => a + x * peval c' x end.
(** Sum of the absolute values of the coefficients. *)
Definition pnorm (c : list R) : R := fold_right (fun a s => Rabs a + s) 0 c.

(** Sum of weight times value over the points of a rule. *)
Fixpoint quad (X W : list R) (f : R -> R) : R :=
  match X, W with x :: X', w :: W' => w * f x + quad X' W' f | _, _ => 0 end.
Definition sumR (l : list R) : R := fold_right Rplus 0 l.

(** The rule integrates polynomials of degree < d over [a,b] with an error of at most eps times the
    sum of the absolute values of the coefficients (exactly, when eps = 0). *)
Definition integrates (d : nat) (eps a b : R) (X W : list R) : Prop :=
  forall c, (length c <= d)%nat -> Rabs (quad X W (peval c) - RInt (peval c) a b) <= eps * pnorm c.

Definition symmetric (X W : list R) : Prop :=
  rev X = map Ropp X /\ rev W = W.

(** Constants with 36 decimals, and storing them with relative error at most 2^-53. *)
Definition S36 : Z := (10^36)%Z.
Definition dec (z : Z) : R := IZR z / IZR S36.
Definition rounds (lit : Z -> R) : Prop :=
  (forall z, Rabs (lit z - dec z) <= / 2^53 * Rabs (dec z)) /\
  (forall z, (Z.abs z <= S36)%Z -> Rabs (lit z) <= 1).

(** A rule whose points can be used: none yet, or nqp points and weights of its type's table. *)
Definition usable (lit : Z -> R) (r : rule) : Prop :=
  (ru_nqp r = 0%Z /\ ru_point r = None /\ ru_weight r = None) \/
  ((1 <= ru_nqp r)%Z /\ exists X W, ru_point r = Some X /\ ru_weight r = Some W /\
    length X = Z.to_nat (ru_nqp r) /\ length W = Z.to_nat (ru_nqp r) /\
    match ru_type r with
    | RLegendre | RReduced => gauss_legendre lit Ropp (ru_nqp r) = Some (X, W)
    | RLobatto => gauss_lobatto lit Ropp (ru_nqp r) = Some (X, W)
    | RUser => True
    end).

(** The arrays passed to IGARuleSetRule have as many entries as announced. *)
Definition op_valid (op : rule_op) : Prop :=
  match op with OpSetRule q x w => (Z.to_nat q <= length x)%nat /\ (Z.to_nat q <= length w)%nat | _ => True end.
