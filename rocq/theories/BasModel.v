(** Model of the evaluation of B-spline basis functions and their derivatives
    (src/petigabsb.f90.in, src/petigabsp.F90).  Definitions only.  Exact arithmetic over R.
    Fortran arrays are functions of their indices; their contents on entry are arbitrary. *)
From Coq Require Import ZArith List Bool Reals.
From Verif Require Import Prelude RealOrd AxisInitModel ElemModel.
Import ListNotations.
Open Scope R_scope.

Section BSpline.
  Variables (i : Z) (uu : R) (p n : Z) (U : Z -> R).

  (** src/petigabsb.f90.in:17-22 body of the loop over r: state (ndu, saved). *)
  Definition ndu_inner (lft rgt : Z -> R) (j : Z) (st : (Z -> Z -> R) * R) (r : Z) : (Z -> Z -> R) * R :=
    let (ndu, saved) := st in
    let ndu := upd2 ndu j r (rgt (r+1)%Z + lft (j-r)%Z) in
    let temp := ndu r (j-1)%Z / ndu j r in
    let ndu := upd2 ndu r j (saved + rgt (r+1)%Z * temp) in
    (ndu, lft (j-r)%Z * temp).

  (** src/petigabsb.f90.in:13-24 body of the loop over j: state (ndu, left, right). *)
  Definition ndu_outer (st : (Z -> Z -> R) * (Z -> R) * (Z -> R)) (j : Z) : (Z -> Z -> R) * (Z -> R) * (Z -> R) :=
    let '(ndu, lft, rgt) := st in
    let lft := upd lft j (uu - U (i+1-j)%Z) in
    let rgt := upd rgt j (U (i+j)%Z - uu) in
    let (ndu, saved) := fold_left (ndu_inner lft rgt j) (zseq 0 j) (ndu, 0) in
    (upd2 ndu j j saved, lft, rgt).

  (** src/petigabsb.f90.in:12-24.  [ndu0], [l0], [r0]: what the arrays contain on entry. *)
  Definition ndu_table (ndu0 : Z -> Z -> R) (l0 r0 : Z -> R) : Z -> Z -> R :=
    fst (fst (fold_left ndu_outer (zseq 1 p) (upd2 ndu0 0 0 1, l0, r0))).

  (** src/petigabsb.f90.in:46-49 body of the loop over j: state (a, d). *)
  Definition der_j (ndu : Z -> Z -> R) (pk rk s1 s2 : Z) (st : (Z -> Z -> R) * R) (j : Z) : (Z -> Z -> R) * R :=
    let (a, d) := st in
    let a := upd2 a s2 j ((a s1 j - a s1 (j-1)%Z) / ndu (pk+1)%Z (rk+j)%Z) in
    (a, d + a s2 j * ndu (rk+j)%Z pk).

  (** src/petigabsb.f90.in:29-56 body of the loop over k: state (a, s1, s2, ders). *)
  Definition der_k (ndu : Z -> Z -> R) (r : Z) (st : (Z -> Z -> R) * Z * Z * (Z -> Z -> R)) (k : Z)
    : (Z -> Z -> R) * Z * Z * (Z -> Z -> R) :=
    let '(a, s1, s2, ders) := st in
    let rk := (r-k)%Z in let pk := (p-k)%Z in
    let (a, d) := if (k <=? r)%Z
                  then let a := upd2 a s2 0 (a s1 0%Z / ndu (pk+1)%Z rk) in (a, a s2 0%Z * ndu rk pk)
                  else (a, 0) in
    let j1 := if (-1 <? rk)%Z then 1%Z else (-rk)%Z in
    let j2 := if (r-1 <=? pk)%Z then (k-1)%Z else (p-r)%Z in
    let (a, d) := fold_left (der_j ndu pk rk s1 s2) (zseq j1 (j2-j1+1)) (a, d) in
    let (a, d) := if (r <=? pk)%Z
                  then let a := upd2 a s2 k (- a s1 (k-1)%Z / ndu (pk+1)%Z r) in (a, d + a s2 k * ndu r pk)
                  else (a, d) in
    (a, s2, s1, upd2 ders r k d).

  (** src/petigabsb.f90.in:26-57 body of the loop over r: state (a, ders). *)
  Definition der_r (ndu : Z -> Z -> R) (st : (Z -> Z -> R) * (Z -> Z -> R)) (r : Z) : (Z -> Z -> R) * (Z -> Z -> R) :=
    let (a, ders) := st in
    let '(a, _, _, ders) := fold_left (der_k ndu r) (zseq 1 n) (upd2 a 0 0 1, 0%Z, 1%Z, ders) in
    (a, ders).

  (** src/petigabsb.f90.in:58-62: state (r, ders). *)
  Definition der_scale (st : Z * (Z -> Z -> R)) (k : Z) : Z * (Z -> Z -> R) :=
    let (r, ders) := st in
    ((r * (p-k))%Z, fun a b => if (b =? k)%Z && (0 <=? a)%Z && (a <=? p)%Z then ders a b * IZR r else ders a b).

  (** src/petigabsb.f90.in:3-63 BSplineBasisFunsDers.  [ders0], [a0]: contents on entry. *)
  Definition bspline_ders (ndu0 a0 ders0 : Z -> Z -> R) (l0 r0 : Z -> R) : Z -> Z -> R :=
    let ndu := ndu_table ndu0 l0 r0 in
    let ders := fun a b => if (b =? 0)%Z && (0 <=? a)%Z && (a <=? p)%Z then ndu a p else ders0 a b in
    let (_, ders) := fold_left (der_r ndu) (zseq 0 (p+1)) (a0, ders) in
    snd (fold_left der_scale (zseq 1 n) (p, ders)).
End BSpline.

(** src/petigabsp.F90:3-16 IGA_Basis_BSpline: B(k,a), order of derivative first. *)
Definition basis_bspline (k : Z) (uu : R) (p d : Z) (U : Z -> R) (ndu0 a0 ders0 : Z -> Z -> R) (l0 r0 : Z -> R)
  : Z -> Z -> R :=
  let ders := bspline_ders k uu p d U ndu0 a0 ders0 l0 r0 in
  fun o a => if (0 <=? o)%Z && (o <=? d)%Z then ders a o else 0.

(** src/petigabasis.c:193-201 the loop over the points of an element with weights [w] and points [u]: it
    stops at the first weight that is not positive; the values of the points not reached keep what the
    memory contained ([value0], by point, order and function; PetscMalloc1 does not clear it). *)
Definition reached (w : list R) (iqp : nat) : bool :=
  (iqp <? length w)%nat && forallb (fun x => Rltb 0 x) (firstn (S iqp) w).
Definition elem_values (k p : Z) (U : Z -> R) (w u : list R) (value0 : nat -> Z -> Z -> R)
    (ndu0 a0 ders0 : Z -> Z -> R) (l0 r0 : Z -> R) (iqp : nat) : Z -> Z -> R :=
  if reached w iqp then basis_bspline k (nth iqp u 0) p (Z.min p 4) U ndu0 a0 ders0 l0 r0 else value0 iqp.

(** src/petigabasis.c:211-222 values at the two ends of the domain, n = m-p-1. *)
Definition bnd_values (side : bool) (p m : Z) (U : Z -> R) (ndu0 a0 ders0 : Z -> Z -> R) (l0 r0 : Z -> R) : Z -> Z -> R :=
  let n := (m-p-1)%Z in
  if side then basis_bspline n (U (n+1)%Z) p (Z.min p 4) U ndu0 a0 ders0 l0 r0
  else basis_bspline p (U p) p (Z.min p 4) U ndu0 a0 ders0 l0 r0.
