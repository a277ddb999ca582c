(** What a boundary load is: the integral over the face of the load times the test function. *)
From Coq Require Import ZArith List Bool Reals.
From Coquelicot Require Import Coquelicot.
From Verif Require Import Prelude RealOrd AxisModel AxisInitModel Box GridSpec ElemSpec BCModel BCSpec BasSpec.
Import ListNotations.
Open Scope Z_scope.

(** Function t of an axis over its domain: integral; value at the lower end, limit at the upper end. *)
Definition integral_1d (a : axis Rord) (t : Z) : R :=
  RInt (bspline (ax_U a) (Z.to_nat (ax_p a)) t) (ax_U a (ax_p a)) (ax_U a (ax_m a - ax_p a)).
Definition trace_1d (a : axis Rord) (side t : Z) : R :=
  if side =? 0 then bspline (ax_U a) (Z.to_nat (ax_p a)) t (ax_U a (ax_p a))
  else bspline_piece (ax_U a) (ax_m a - ax_p a - 1) (Z.to_nat (ax_p a)) t (ax_U a (ax_m a - ax_p a)).
(** Integral over face (dir,side) of the function of node t, a product of one function per direction. *)
Definition face_integral (dim : Z) (axes : Z -> axis Rord) (dir side : Z) (t : triple) : R :=
  let g := fun i => if i <? dim then if i =? dir then trace_1d (axes i) side (coord t i) else integral_1d (axes i) (coord t i) else 1%R in
  (g 0%Z * g 1%Z * g 2%Z)%R.
(** Load on component c of node t: over all loaded faces. *)
Definition weak_load (dim : Z) (axes : Z -> axis Rord) (load : Z -> Z -> list (Z * R)) (t : triple) (c : Z) : R :=
  rsum (fun f => match lookup c (load (fst f) (snd f)) with
                 | Some g => g * face_integral dim axes (fst f) (snd f) t
                 | None => 0 end)%R (faces dim).
(** Open knot vector: both ends repeated. *)
Definition clamped (a : axis Rord) : Prop :=
  ax_periodic a = false /\ ax_U a 0 = ax_U a (ax_p a) /\ ax_U a (ax_m a - ax_p a) = ax_U a (ax_m a).

(** ** Faces of a mapped element *)
(** Control points of a face: index (i,j) or (i,j,k) in the element, k the fixed one (lowest or highest). *)
Definition edge_index (m : Z -> Z) (axis side b : Z) : Z * Z :=
  let k := if side =? 0 then 0 else m axis - 1 in if axis =? 0 then (k, b) else (b, k).
Definition surf_index (m : Z -> Z) (axis side a b : Z) : triple :=
  let k := if side =? 0 then 0 else m axis - 1 in
  if axis =? 0 then (k, a, b) else if axis =? 1 then (a, k, b) else (a, b, k).
(** Point of a curve (n functions) or surface (n1 x n2), polynomial or rational. *)
Definition curve_point (n : Z) (w : option (Z -> R)) (x B : Z -> R) : R :=
  match w with
  | None => rsum (fun b => x b * B b) (zseq 0 n)
  | Some w => rsum (fun b => w b * x b * B b) (zseq 0 n) / rsum (fun b => w b * B b) (zseq 0 n)
  end%R.
Definition surface_point (n1 n2 : Z) (w : option (Z -> Z -> R)) (x : Z -> Z -> R) (A B : Z -> R) : R :=
  match w with
  | None => rsum (fun b => rsum (fun a => x a b * (A a * B b)) (zseq 0 n1)) (zseq 0 n2)
  | Some w => rsum (fun b => rsum (fun a => w a b * x a b * (A a * B b)) (zseq 0 n1)) (zseq 0 n2)
              / rsum (fun b => rsum (fun a => w a b * (A a * B b)) (zseq 0 n1)) (zseq 0 n2)
  end%R.
(** Length of a plane vector; length of the cross product of two vectors of space. *)
Definition length2 (t : Z -> R) : R := sqrt (t 0%Z * t 0%Z + t 1%Z * t 1%Z)%R.
Definition cross_length (s t : Z -> R) : R :=
  sqrt ((s 1%Z * t 2%Z - s 2%Z * t 1%Z) * (s 1%Z * t 2%Z - s 2%Z * t 1%Z) +
        (s 2%Z * t 0%Z - s 0%Z * t 2%Z) * (s 2%Z * t 0%Z - s 0%Z * t 2%Z) +
        (s 0%Z * t 1%Z - s 1%Z * t 0%Z) * (s 0%Z * t 1%Z - s 1%Z * t 0%Z))%R.
