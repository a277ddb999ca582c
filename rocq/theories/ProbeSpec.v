(** What a point evaluation should give. *)
From Coq Require Import ZArith List Reals.
From Verif Require Import Prelude RealOrd Box AxisModel GridSpec ElemSpec BasModel BasSpec MapSpec ProbeModel.
Import ListNotations.
Open Scope Z_scope.

(** The closed parametric domain of the first dim axes. *)
Definition in_domain (dim : Z) (axes : Z -> axis Rord) (u : Z -> R) : Prop :=
  forall d, 0 <= d < dim -> (ax_U (axes d) (ax_p (axes d)) <= u d <= ax_U (axes d) (ax_m (axes d) - ax_p (axes d)))%R.

(** k d is the nonempty knot span of direction d containing u d; spans are half open except the last of the domain. *)
Definition spans_of (dim : Z) (axes : Z -> axis Rord) (u : Z -> R) (k : Z -> Z) : Prop :=
  forall d, 0 <= d < dim ->
  let U := ax_U (axes d) in let p := ax_p (axes d) in let m := ax_m (axes d) in
  p <= k d <= m - p - 1 /\ (U (k d) < U (k d + 1)%Z)%R /\
  (U (k d) <= u d)%R /\ ((u d < U (k d + 1)%Z)%R \/ (k d = m - p - 1 /\ u d = U (m - p)%Z)).

(** Functions active on the spans k: numbers k d - p .. k d in direction d, the first direction running fastest;
    a = 1, 2, ... is the number of the function. *)
Definition active_node (dim : Z) (axes : Z -> axis Rord) (k : Z -> Z) (a : Z) : triple :=
  let p := fun d => if d <? dim then ax_p (axes d) else 0 in
  let lo := fun d => if d <? dim then k d - p d else 0 in
  let i := fun d => if d =? 0 then (a-1) mod (p 0 + 1)
                    else if d =? 1 then (a-1) / (p 0 + 1) mod (p 1 + 1)
                    else (a-1) / (p 0 + 1) / (p 1 + 1) in
  (lo 0 + i 0, lo 1 + i 1, lo 2 + i 2).

(** The local array L of a rank, bs values per node of the ghosted box, holds the nodal values f. *)
Definition local_copy (gs gw : Z -> Z) (bs : Z) (L : Z -> R) (f : triple -> Z -> R) : Prop :=
  forall t c, in_box gs gw t -> 0 <= c < bs -> L (lin gw (tsub gs t) * bs + c) = f t c.

(** The B-spline or NURBS field with coefficients A, the polynomial (rational) piece over the knot spans k, component c,
    as a function of the parametric point y (coordinates 1..dim). *)
Definition piece_functions (dim : Z) (axes : Z -> axis Rord) (k : Z -> Z) (a : Z) (y : pt) : R :=
  let p := fun d => if d <? dim then ax_p (axes d) else 0 in
  tensor_value dim (p 0 + 1) (p 1 + 1)
    (fun d i => bspline_piece (ax_U (axes (d-1))) (k (d-1)) (Z.to_nat (p (d-1))) (k (d-1) - p (d-1) + (i-1))) a y.
Definition piece_nen (dim : Z) (axes : Z -> axis Rord) : Z :=
  let p := fun d => if d <? dim then ax_p (axes d) else 0 in (p 0 + 1) * (p 1 + 1) * (p 2 + 1).
Definition piece_weight (dim : Z) (axes : Z -> axis Rord) (k : Z -> Z) (w : option (triple -> R)) (y : pt) : R :=
  match w with
  | Some w => rsum (fun a => (w (active_node dim axes k a) * piece_functions dim axes k a y)%R) (zseq 1 (piece_nen dim axes))
  | None => 1%R
  end.
Definition piece_field (dim : Z) (axes : Z -> axis Rord) (k : Z -> Z) (w : option (triple -> R)) (A : triple -> Z -> R) (c : Z) (y : pt) : R :=
  (rsum (fun a => A (active_node dim axes k a) c *
     (match w with Some w => w (active_node dim axes k a) | None => 1 end * piece_functions dim axes k a y)) (zseq 1 (piece_nen dim axes))
   / piece_weight dim axes k w y)%R.

(** The same field as the sum over all control points t of the B-splines B_t, the products of the univariate ones. *)
Definition bspline_product (dim : Z) (axes : Z -> axis Rord) (u : Z -> R) (t : triple) : R :=
  fold_right Rmult 1%R (map (fun d => bspline (ax_U (axes d)) (Z.to_nat (ax_p (axes d))) (coord t d) (u d)) (zseq 0 dim)).
Definition control_points (dim : Z) (axes : Z -> axis Rord) : list triple :=
  box zero3 (fun d => if d <? dim then ax_m (axes d) - ax_p (axes d) else 1).
Definition spline_field (dim : Z) (axes : Z -> axis Rord) (w : option (triple -> R)) (A : triple -> Z -> R) (c : Z) (u : Z -> R) : R :=
  match w with
  | None => rsum (fun t => A t c * bspline_product dim axes u t)%R (control_points dim axes)
  | Some w => (rsum (fun t => A t c * (w t * bspline_product dim axes u t)) (control_points dim axes)
               / rsum (fun t => w t * bspline_product dim axes u t) (control_points dim axes))%R
  end.

(** The 1D tables are those of IGA_Basis_BSpline, for arbitrary contents of the work arrays. *)
Definition bspline_tables (E : penv) : Prop :=
  exists ndu0 a0 ders0 l0 r0, forall i k u p d U o a,
    pe_basis E i k u p d U o a = basis_bspline k u p d U (ndu0 i u) (a0 i u) (ders0 i u) (l0 i u) (r0 i u) o a.
