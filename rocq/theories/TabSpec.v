(** What tabulation on an element, and a positive definite Galerkin matrix, should be. *)
From Coq Require Import ZArith List Bool Reals.
From Verif Require Import Prelude Box GridSpec ElemSpec RuleModel RuleSpec PcSpec.
Import ListNotations.
Open Scope Z_scope.

Definition at0 (l : list R) (q : Z) : R := nth (Z.to_nat q) l 0%R.

(** The positive weights are the first n. *)
Definition leading (W : list R) (n : Z) : Prop :=
  0 <= n <= Z.of_nat (length W) /\ (forall q, 0 <= q < n -> (0 < at0 W q)%R) /\
  (forall q, n <= q < Z.of_nat (length W) -> (at0 W q <= 0)%R).

(** A rule with at least one point that counts: the library's own rules, and user rules whose positive weights (at
    least one) come first. *)
Definition good_rule (lit : Z -> R) (r : rule) : Prop :=
  usable lit r /\
  (ru_type r = RUser -> exists W n, ru_weight r = Some W /\ 1 <= n /\ leading W n).

(** A rule with more than p points in the reference interval on every element. *)
Definition enough_points (lit : Z -> R) (p : Z) (r : rule) : Prop :=
  usable lit r /\
  match ru_type r with
  | RLegendre | RLobatto => ru_nqp r = 0 \/ p < ru_nqp r
  | RReduced => p + 1 < ru_nqp r
  | RUser => exists X W n, ru_point r = Some X /\ ru_weight r = Some W /\ p < n /\ leading W n /\
      NoDup (firstn (Z.to_nat n) X) /\ (forall q, 0 <= q < n -> (-1 <= at0 X q <= 1)%R)
  end.

(** Sum over the points of a tensor product of three rules: direction i = 0, 1, 2 has nq i points with coordinates x i and
    weights w i. *)
Definition tensor_sum (nq : Z -> Z) (x w : Z -> Z -> R) (F : (Z -> R) -> R) : R :=
  rsum (fun k => rsum (fun j => rsum (fun i =>
    F (fun d => if (d =? 0)%Z then x 0%Z i else if (d =? 1)%Z then x 1%Z j else x 2%Z k) * (w 0%Z i * w 1%Z j * w 2%Z k))%R
    (zseq 0 (nq 0))) (zseq 0 (nq 1))) (zseq 0 (nq 2)).

(** * Matrices *)
Definition psd (n : Z) (A : Z -> Z -> R) : Prop := PcSpec.symmetric n A /\ forall x, (0 <= qform n A x x)%R.
(** The array of an n x n matrix, row by row. *)
Definition rows (n : Z) (K : Z -> R) (i j : Z) : R := K (i * n + j).

Section Point.
  (* dof components, nen functions per direction; phi b, dphi i b: value of function b = 1, 2, .. and of its derivative in
     direction i = 1..dim *)
  Variables (dim dof : Z) (nen : Z -> Z) (phi : Z -> R) (dphi : Z -> Z -> R).
  Let n := vol nen * dof.
  (** Component c of the field with coefficients X, and its derivative in direction i. *)
  Definition pt_value (X : Z -> R) (c : Z) : R := rsum (fun a => X (lin nen a * dof + c)%Z * phi (lin nen a + 1)%Z)%R (box zero3 nen).
  Definition pt_grad (X : Z -> R) (c i : Z) : R := rsum (fun a => X (lin nen a * dof + c)%Z * dphi i (lin nen a + 1)%Z)%R (box zero3 nen).
  (** Positive semidefinite, and zero only on fields that vanish, or whose gradients vanish, at the point. *)
  Definition definite_values (K : Z -> R) : Prop :=
    psd n (rows n K) /\ forall X, qform n (rows n K) X X = 0%R -> forall c, 0 <= c < dof -> pt_value X c = 0%R.
  Definition definite_grads (K : Z -> R) : Prop :=
    psd n (rows n K) /\ forall X, qform n (rows n K) X X = 0%R -> forall c i, 0 <= c < dof -> 1 <= i <= dim -> pt_grad X c i = 0%R.
  (** The integrand of diffusion with tensor kap (indices 0..dim-1) and reaction sig, the same for all components:
      grad phi_a . kap grad phi_b + sig phi_a phi_b. *)
  Definition diffusion_reaction (kap : Z -> Z -> R) (sig : R) (K : Z -> R) : Prop :=
    forall a b c d, in_box zero3 nen a -> in_box zero3 nen b -> 0 <= c < dof -> 0 <= d < dof ->
    rows n K (lin nen a * dof + c) (lin nen b * dof + d) =
    (if c =? d then rsum (fun i => rsum (fun j => dphi (i+1)%Z (lin nen a + 1)%Z * kap i j * dphi (j+1)%Z (lin nen b + 1)%Z) (zseq 0 dim)) (zseq 0 dim)
       + sig * phi (lin nen a + 1)%Z * phi (lin nen b + 1)%Z else 0)%R.
End Point.
