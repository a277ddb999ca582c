(** Model of the tabulation of an element: the values of the one-dimensional basis functions at the quadrature
    points (src/petigabasis.c IGABasisInitQuadrature, second half; IGASetUp's third stage, src/petiga.c:1478-1482),
    the tensor products of the rules (src/petiga1d.F90, petiga2d.F90, petiga3d.F90 IGA_Quadrature_1D/2D/3D) and
    IGAElementBuildTabulation (src/petigaelem.c:764-1032), interior and boundary, nsd = dim.
    Arithmetic is exact (reals).  Quadrature only; collocation is not part of this model. *)
From Coq Require Import ZArith List Bool Reals.
From Verif Require Import Prelude RealOrd AxisModel Box GridSpec ElemModel ElemSpec RuleModel MapModel.
Import ListNotations.
Open Scope Z_scope.

(** include/petiga.h:122-148 struct _n_IGABasis with the tables of values: [bt_value e q o a] is derivative o of
    function a at point q of element e. *)
Record btable := mk_btable {
  bt_q : basis_q; bt_value : Z -> Z -> Z -> Z -> R;
  bt_bnd_point : Z -> R; bt_bnd_value : Z -> Z -> Z -> R }.

Section Table.
  Variable lit : Z -> R.
  Variable maxreal : R.
  (** ComputeBasis(k,u,p,d,U,N): IGA_Basis_BSpline, IGA_Basis_Lagrange or IGA_Basis_Spectral *)
  Variable CB : Z -> R -> Z -> Z -> (Z -> R) -> Z -> Z -> R.

  (** src/petigabasis.c:177-178: the loop "for (iqp=0; iqp<nqp && w[iqp]>0; iqp++) ComputeBasis(k,u[iqp],...)" on the
      weights and points from iqp = q on; [N] is what the array holds before. *)
  Fixpoint fill_values (row : R -> Z -> Z -> R) (W X : list R) (q : Z) (N : Z -> Z -> Z -> R) : Z -> Z -> Z -> R :=
    match W, X with
    | w :: W', u :: X' =>
        if Rlt_dec 0 w then fill_values row W' X' (q+1) (fun k => if k =? q then row u else N k) else N
    | _, _ => N
    end.

  (** src/petigabasis.c:83-206 IGABasisInitQuadrature; [N0]: the freshly allocated array of values. *)
  Definition basis_init (bspline : bool) (p m : Z) (U : Z -> R) (spans : list Z) (N0 : Z -> Z -> Z -> Z -> R) (r : rule)
    : status * rule * option btable :=
    match init_quadrature lit maxreal bspline p m U spans r with
    | (s, r, Some Q) =>
        let d := Z.min p 4 in let n := m - p - 1 in
        (s, r, Some (mk_btable Q
          (fun e => fill_values (fun u => CB (nth (Z.to_nat e) spans 0) u p d U) (bq_weight Q e) (bq_point Q e) 0 (N0 e))
          (fun s => if s =? 0 then U p else U (n+1))
          (fun s => if s =? 0 then CB p (U p) p d U else CB n (U (n+1)) p d U)))
    | (s, r, None) => (s, r, None)
    end.

  (** src/petigaaxis.c:44-71 IGAAxisReset: knots -0.5, 0.5, degree 0, one element. *)
  Definition unit_knots (k : Z) : R := if k =? 0 then (- (1/2))%R else (1/2)%R.
  (** src/petiga.c:1125-1126, 1478-1482: direction i of IGASetUp; the directions i >= dim get the unit axis and a fresh
      Gauss-Legendre rule. *)
  Definition setup_basis (dim i : Z) (bspline : bool) (p m : Z) (U : Z -> R) (spans : list Z) (N0 : Z -> Z -> Z -> Z -> R) (r : rule)
    : status * rule * option btable :=
    if i <? dim then basis_init bspline p m U spans N0 r
    else basis_init bspline 0 1 unit_knots [0] N0 (mk_rule RLegendre 0 None None).
End Table.

(** src/petigaelem.c:764-776 IGA_Quadrature_SIZE, one direction: "q = nqp-1; while (q >= 0 && w[q] <= 0) q--;
    NQ = 1 + q".  [n] counts the points not yet dropped. *)
Fixpoint quad_trim (w : Z -> R) (n : nat) : Z :=
  match n with
  | O => 0
  | S n' => if Rle_dec (w (Z.of_nat n')) 0 then quad_trim w n' else Z.of_nat n
  end.
(** BD[i]->weight + ID[i]*BD[i]->nqp *)
Definition weights_at (T : btable) (e q : Z) : R := nth (Z.to_nat q) (bq_weight (bt_q T) e) 0%R.
Definition points_at (T : btable) (e q : Z) : R := nth (Z.to_nat q) (bq_point (bt_q T) e) 0%R.
Definition quad_size (T : btable) (e : Z) : Z := quad_trim (weights_at T e) (Z.to_nat (bq_nqp (bt_q T))).

(** One direction as passed to the Fortran routines: number of points, points, weights, Jacobian, number of functions and
    values.  src/petigaelem.c:778-786 IGA_Quadrature_ARGS, IGA_BasisFuns_ARGS. *)
Record dir := mk_dir { d_nq : Z; d_x : Z -> R; d_w : Z -> R; d_J : R; d_na : Z; d_N : Z -> Z -> Z -> R }.
Definition dir_args (T : btable) (e : Z) : dir :=
  mk_dir (quad_size T e) (points_at T e) (weights_at T e) (bq_detJac (bt_q T) e) (bq_nen (bt_q T)) (bt_value T e).
(** src/petigaelem.c:788-792 IGA_Quadrature_BNDR, IGA_BasisFuns_BNDR; bnd_weight = bnd_detJac = 1 (petigabasis.c:200-201) *)
Definition dir_bndr (T : btable) (side : Z) : dir :=
  mk_dir 1 (fun _ => bt_bnd_point T side) (fun _ => 1%R) 1%R (bq_nen (bt_q T)) (fun _ => bt_bnd_value T side).

Section Element.
  Variables dim order : Z.
  Variable BT : Z -> btable.                     (* element->parent->basis *)
  Variable sqrt : R -> R.
  Variable rationalW : triple -> option (Z -> R).   (* element->rationalW, by function 1..nen *)
  Variable geometryX : triple -> option (Z -> Z -> R).
  (* what the element's arrays hold from the element before *)
  Variable oldN oldX oldS : triple -> form_visit -> Z -> nders.
  Variable oldE : triple -> form_visit -> Z -> inv_map.

  (** src/petigaelem.c:829-858, 867-905: the arguments of direction i (0..2) at element e *)
  Definition dir_of (e : triple) (f : form_visit) (i : Z) : dir :=
    match f with
    | Interior => dir_args (BT i) (coord e i)
    | Face axis side => if i =? axis then dir_bndr (BT i) side else dir_args (BT i) (coord e i)
    end.
  (** src/petigaelem.c:812-818: the number of points; dividing by zero is None. *)
  Definition tab_count (e : triple) (f : form_visit) : option Z :=
    let NQ := fun i => quad_size (BT i) (coord e i) in
    let nqp := NQ 0 * NQ 1 * NQ 2 in
    match f with
    | Interior => Some nqp
    | Face axis side => if NQ axis =? 0 then None else Some (nqp / NQ axis)
    end.
  Definition tab_npts (e : triple) (f : form_visit) : Z := match tab_count e f with Some n => n | None => 0 end.

  (** Column-major position q (from 0) of an array dimensioned (inq,jnq,knq): the indices (from 0). *)
  Definition point_index (e : triple) (f : form_visit) (q i : Z) : Z :=
    let n := fun i => d_nq (dir_of e f i) in
    if i =? 0 then (if dim =? 1 then q else q mod n 0)
    else if i =? 1 then (if dim =? 2 then q / n 0 else (q / n 0) mod n 1)
    else q / (n 0 * n 1).
  (** src/petiga1d.F90:1-19, petiga2d.F90:1-25, petiga3d.F90:1-29 IGA_Quadrature_1D/2D/3D: points, weights and Jacobian *)
  Definition tab_point (e : triple) (f : form_visit) (q i : Z) : R := d_x (dir_of e f i) (point_index e f q i).
  Definition tab_weight (e : triple) (f : form_visit) (q : Z) : R :=
    let w := fun i => d_w (dir_of e f i) (point_index e f q i) in
    if dim =? 1 then w 0 else if dim =? 2 then (w 0%Z * w 1%Z)%R else (w 0%Z * w 1%Z * w 2%Z)%R.
  Definition tab_detJ (e : triple) (f : form_visit) (q : Z) : R :=
    let J := fun i => d_J (dir_of e f i) in
    if dim =? 1 then J 0 else if dim =? 2 then (J 0%Z * J 1%Z)%R else (J 0%Z * J 1%Z * J 2%Z)%R.
  (** The tables iN(:,:,iq), jN(:,:,jq), kN(:,:,kq) passed to TensorBasisFuns (directions and functions from 1) *)
  Definition tab_rows (e : triple) (f : form_visit) (q : Z) (d o a : Z) : R :=
    d_N (dir_of e f (d-1)) (point_index e f q (d-1)) o (a-1).
  (** src/petigaelem.c:862-1011: basis, mapX, shape and inverse map at point q *)
  Definition tab_all (e : triple) (f : form_visit) (q : Z) : nders * nders * nders * inv_map :=
    let na := fun i => if i <? dim then d_na (dir_of e f i) else 1 in
    tabulate dim order (na 0) (na 1) (na 2) (tab_rows e f q) (rationalW e) (geometryX e) (oldN e f q) (oldX e f q) (oldS e f q) (oldE e f q).
  Definition tab_mapX e f q : nders := snd (fst (fst (tab_all e f q))).
  Definition tab_shape e f q : nders := snd (fst (tab_all e f q)).
  Definition tab_inv e f q : inv_map := snd (tab_all e f q).
  (** src/petigaelem.c:1013-1030: surface Jacobian, and detJac multiplied by detX or detS when there is a geometry *)
  Definition tab_detS (e : triple) (f : form_visit) (q : Z) : R :=
    match f, geometryX e with
    | Face axis side, Some _ => fst (get_normal sqrt dim axis side (n1 (tab_mapX e f q)))
    | _, _ => 1%R
    end.
  Definition tab_detJac (e : triple) (f : form_visit) (q : Z) : R :=
    match geometryX e with
    | None => tab_detJ e f q
    | Some _ => (tab_detJ e f q * match f with Interior => e_det (tab_inv e f q) | Face _ _ => tab_detS e f q end)%R
    end.
  (** src/petigapoint.c:461 JW = detJac*weight *)
  Definition tab_JW (e : triple) (f : form_visit) (q : Z) : R := (tab_detJac e f q * tab_weight e f q)%R.
End Element.
