(** Model of the weight PetIGA gives to boundary loads (quadrature mode): BoundaryArea of
    src/petigaelem.c and the Fortran routines it calls.  Definitions only. *)
From Coq Require Import ZArith List Bool Reals.
From Verif Require Import Prelude RealOrd GridSpec RuleModel.
Import ListNotations.
Open Scope Z_scope.

(** src/petigaelem.c:1118-1164 BoundaryArea on the element ID; [geometry]: the result dS of
    IGA_BoundaryArea_2D/3D for (dir, side) when the element has a geometry.  ("sum(W) = 2" is a
    comment of the code; the weights themselves are not read without a geometry.) *)
Definition boundary_area (dim : Z) (BD : Z -> basis_q) (geometry : option (Z -> Z -> R)) (ID : Z -> Z) (dir side : Z) : R :=
  if dim =? 1 then 1%R
  else
    let A := fold_left (fun A i => if i =? dir then A else A * (bq_detJac (BD i) (ID i) / IZR (bq_nen (BD i))))%R (zseq 0 dim) 1%R in
    match geometry with
    | None => A * (if (dim =? 2)%Z then 2 else 4)
    | Some dS => A * dS dir side
    end%R.

(** src/petiga2d.F90:318-333, src/petiga3d.F90:436-451 Rationalize: R1(i,:); [nen] functions. *)
Definition rational_der (nen : Z) (W R0 : Z -> R) (R1 : Z -> Z -> R) (i b : Z) : R :=
  let W0 := rsum (fun b => W b * R0 b)%R (zseq 0 nen) in
  ((W b * R1 i b - W b * R0 b / W0 * rsum (fun b => W b * R1 i b)%R (zseq 0 nen)) / W0)%R.
(** src/petiga2d.F90:334-344, src/petiga3d.F90:452-462 Jacobian: sqrt(abs(det(F F^T))), F = N X^T;
    [fdim]: 1 or 2 directions of the face. *)
Definition face_jacobian (fdim nsd nen : Z) (R1 : Z -> Z -> R) (X : Z -> Z -> R) : R :=
  let F := fun al i => rsum (fun b => R1 al b * X i b)%R (zseq 0 nen) in
  let M := fun al be => rsum (fun i => F al i * F be i)%R (zseq 0 nsd) in
  sqrt (Rabs (if (fdim =? 1)%Z then M 0%Z 0%Z else M 0%Z 0%Z * M 1%Z 1%Z - M 0%Z 1%Z * M 1%Z 0%Z))%R.

(** Position in Cx(:,...), Cw of the b-th control point of face (axis, side):
    src/petiga2d.F90:298-307, src/petiga3d.F90:405-420; m: the numbers of control points. *)
Definition face_point (dim : Z) (m : Z -> Z) (axis side b : Z) : Z :=
  let k := if side =? 0 then 0 else m axis - 1 in
  if dim =? 2 then (if axis =? 0 then k + b * m 0 else b + k * m 0)
  else if axis =? 0 then k + (b mod m 1) * m 0 + (b / m 1) * (m 0 * m 1)
  else if axis =? 1 then b mod m 0 + k * m 0 + (b / m 0) * (m 0 * m 1)
  else b mod m 0 + (b / m 0) * m 0 + k * (m 0 * m 1).

Section Area.
  Variables (m : Z -> Z) (axis side : Z).
  Variable Cx : Z -> R.              (* the element's control points, as memory *)
  Variable Cw : option (Z -> R).
  Definition rat (nen : Z) (dim : Z) (N0 : Z -> R) (N1 : Z -> Z -> R) : Z -> Z -> R :=
    match Cw with
    | Some W => rational_der nen (fun b => W (face_point dim m axis side b)) N0 N1
    | None => N1
    end.
  (** src/petiga2d.F90:276-317 IGA_BoundaryArea_2D; nsd = 2 is the stride of Cx; N o b q is N(o,b,q). *)
  Definition area_2d (nqp : Z) (W : Z -> R) (nen : Z) (N : Z -> Z -> Z -> R) : R :=
    rsum (fun q => face_jacobian 1%Z 2%Z nen (rat nen 2%Z (fun b => N 0%Z b q) (fun _ b => N 1%Z b q))
                     (fun i b => Cx (i + 2 * face_point 2 m axis side b)%Z) * W q)%R (zseq 0 nqp).
  (** src/petiga3d.F90:379-435 IGA_BoundaryArea_3D; nsd = 3; the functions ia + inen*ja. *)
  Definition area_3d (inqp : Z) (iW : Z -> R) (inen : Z) (iN : Z -> Z -> Z -> R)
      (jnqp : Z) (jW : Z -> R) (jnen : Z) (jN : Z -> Z -> Z -> R) : R :=
    rsum (fun jq => rsum (fun iq =>
      face_jacobian 2%Z 3%Z (inen * jnen)%Z
        (rat (inen * jnen)%Z 3%Z (fun b => iN 0%Z (b mod inen)%Z iq * jN 0%Z (b / inen)%Z jq)%R
             (fun al b => if (al =? 0)%Z then iN 1%Z (b mod inen)%Z iq * jN 0%Z (b / inen)%Z jq
                          else iN 0%Z (b mod inen)%Z iq * jN 1%Z (b / inen)%Z jq)%R)
        (fun i b => Cx (i + 3 * face_point 3 m axis side b)%Z) * iW iq * jW jq)%R (zseq 0 inqp)) (zseq 0 jnqp).
End Area.
