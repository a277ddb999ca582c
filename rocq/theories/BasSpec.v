(** Specification of B-splines: the Cox-de Boor recursion. *)
From Coq Require Import ZArith Reals.
Open Scope R_scope.

(** Quotient with the convention 0/0 = 0 of the recursion (anything over zero is zero). *)
Definition frac (x d : R) : R := if Req_EM_T d 0 then 0 else x / d.

(** B-spline function number c of degree q over the knots U, given the functions of degree zero. *)
Fixpoint bsp (ind : Z -> R) (U : Z -> R) (q : nat) (c : Z) (u : R) : R :=
  match q with
  | O => ind c
  | S q' =>
      let d := Z.of_nat q in
      frac ((u - U c) * bsp ind U q' c u) (U (c+d)%Z - U c)
    + frac ((U (c+d+1)%Z - u) * bsp ind U q' (c+1)%Z u) (U (c+d+1)%Z - U (c+1)%Z)
  end.

(** Degree zero: the indicator of the half-open knot span. *)
Definition span_ind (U : Z -> R) (u : R) (c : Z) : R :=
  if Rle_dec (U c) u then if Rlt_dec u (U (c+1)%Z) then 1 else 0 else 0.
(** The B-spline function. *)
Definition bspline (U : Z -> R) (q : nat) (c : Z) (u : R) : R := bsp (span_ind U u) U q c u.

(** Its polynomial piece over knot span i, extended to all u. *)
Definition piece (i c : Z) : R := if Z.eq_dec c i then 1 else 0.
Definition bspline_piece (U : Z -> R) (i : Z) (q : nat) (c : Z) (u : R) : R := bsp (piece i) U q c u.
