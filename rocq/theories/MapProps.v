(** C33, C34, C35, C54, C66, C68, C69, C71: tensor product bases, NURBS, geometry map and its inverse, derivatives of
    the shape functions, normals, field evaluation. *)
From Coq Require Import ZArith List Bool Lia Reals Lra Psatz.
From Coq Require Import ZifyBool ZifyNat.
From Coquelicot Require Import Coquelicot.
From Verif Require Import Prelude RealOrd AxisModel AxisSpec GridSpec GridProofs BasModel BasSpec BasProps MapModel MapSpec MapProofs MapProofs2 MapProofs3 MapProofs4.
Import ListNotations.
Open Scope R_scope.

Definition dims (dim ina jna kna : Z) : Prop :=
  (1 <= dim <= 3)%Z /\ (1 <= ina)%Z /\ (1 <= jna)%Z /\ (1 <= kna)%Z /\ ((dim < 2)%Z -> jna = 1%Z) /\ ((dim < 3)%Z -> kna = 1%Z).
Definition count_of (ina jna kna d : Z) : Z := if (d =? 1)%Z then ina else if (d =? 2)%Z then jna else kna.

Lemma tensor_n0 dim order ina jna kna Bf old x a : dims dim ina jna kna ->
  n0 (basis_funs dim order ina jna (fun d o i => Bf d o i (x d)) old) a = tensor_value dim ina jna (fun d i => Bf d 0%Z i) a x.
Proof.
  intros (Hd & Hi & Hj & Hk & _). pose proof (bf0 dim order ina jna Bf (fun _ => old) Hd x a) as B. cbv beta in B. rewrite B.
  unfold tens_prod, tensor_value, node_i, node_j, node_k, cnt. rewrite (Z.add_comm 1 ((a-1) mod ina)), (Z.add_comm 1 ((a-1) / ina mod jna)), (Z.add_comm 1 ((a-1)/(ina*jna))), Z.div_div by lia.
  assert (C : (dim = 1 \/ dim = 2 \/ dim = 3)%Z) by lia.
  generalize ((a-1) mod ina + 1)%Z ((a-1) / ina mod jna + 1)%Z ((a-1) / ina / jna + 1)%Z. intros i1 i2 i3. clear -C.
  destruct C as [-> | [-> | ->]]; cbv -[Rplus Rminus Rmult Rdiv Rinv Ropp IZR R]; ring.
Qed.

(** C68: with univariate tables whose row o+1 is the derivative of row o, the arrays N0..N4 of the element hold the
    products of the univariate functions and all their partial derivatives up to the order, and are symmetric. *)
Theorem C68_tensor_product_derivatives :
  forall dim order ina jna kna (Bf : Z -> Z -> Z -> R -> R) (old : pt -> nders) x, dims dim ina jna kna ->
  (forall d o i, (1 <= d <= dim)%Z -> (0 <= o < order)%Z -> (1 <= i <= count_of ina jna kna d)%Z ->
     is_derive (Bf d o i) (x d) (Bf d (o+1)%Z i (x d))) ->
  let N := fun y => basis_funs dim order ina jna (fun d o i => Bf d o i (y d)) (old y) in
  (forall y a, n0 (N y) a = tensor_value dim ina jna (fun d i => Bf d 0%Z i) a y) /\
  jet dim order (ina*jna*kna)%Z N x /\ symmetric dim order (ina*jna*kna)%Z (N x).
Proof.
  intros dim order ina jna kna Bf old x HD HB N. pose proof HD as (Hd & Hi & Hj & Hk & H2 & H3). split; [|split].
  - intros y a. apply tensor_n0 with (kna := kna); auto.
  - apply basis_jet; auto.
  - apply basis_sym; auto.
Qed.
Print Assumptions C68_tensor_product_derivatives.

(** The rows of the B-spline table as functions of the parameter. *)
Lemma bspline_rows p m (U : Z -> R) i ndu0 a0 ders0 l0 r0 :
  nondecreasing (O:=Rord) m U -> (0 <= p)%Z -> (p <= i <= m-p-1)%Z -> U i < U (i+1)%Z ->
  let B := fun u => basis_bspline i u p (Z.min p 4) U (ndu0 u) (a0 u) (ders0 u) (l0 u) (r0 u) in
  forall k a u, (0 <= k < 4)%Z -> (0 <= a <= p)%Z -> is_derive (fun v => B v k a) u (B u (k+1)%Z a).
Proof.
  intros HN Hp Hi HU B k a u Hk Ha.
  assert (D : forall k v, (0 <= k <= 4)%Z -> is_derive_n (bspline_piece U i (Z.to_nat p) (i-p+a)) (Z.to_nat k) v (B v k a)).
  { intros k' v Hk'. apply (C31_derivatives p m U i v (ndu0 v) (a0 v) (ders0 v) (l0 v) (r0 v) HN Hp Hi HU k' Hk'). auto. }
  pose proof (D (k+1)%Z u ltac:(lia)) as E. replace (Z.to_nat (k+1)) with (Datatypes.S (Z.to_nat k)) in E by lia. cbn [is_derive_n] in E.
  eapply is_derive_ext; [|exact E]. intros v. apply is_derive_n_unique. apply D. lia.
Qed.

(** C68: in particular with the B-spline tables of C30/C31 in every direction. *)
Theorem C68_bspline_products :
  forall dim order (p m s : Z -> Z) (U : Z -> Z -> R) ndu0 a0 ders0 l0 r0 (old : pt -> nders) x, (1 <= dim <= 3)%Z -> (order <= 4)%Z ->
  (forall d, (1 <= d <= dim)%Z -> nondecreasing (O:=Rord) (m d) (U d) /\ (0 <= p d)%Z /\ (p d <= s d <= m d - p d - 1)%Z /\ U d (s d) < U d (s d + 1)%Z) ->
  let n := fun d => if (d <=? dim)%Z then (p d + 1)%Z else 1%Z in
  let B := fun (y : pt) d o i => basis_bspline (s d) (y d) (p d) (Z.min (p d) 4) (U d) (ndu0 d (y d)) (a0 d (y d)) (ders0 d (y d)) (l0 d (y d)) (r0 d (y d)) o (i-1)%Z in
  let N := fun y => basis_funs dim order (n 1%Z) (n 2%Z) (B y) (old y) in
  (forall a, (1 <= a <= n 1 * n 2 * n 3)%Z ->
     n0 (N x) a = tensor_value dim (n 1%Z) (n 2%Z) (fun d i => bspline_piece (U d) (s d) (Z.to_nat (p d)) (s d - p d + (i-1))) a x) /\
  jet dim order (n 1 * n 2 * n 3)%Z N x /\ symmetric dim order (n 1 * n 2 * n 3)%Z (N x).
Proof.
  intros dim order p m s U ndu0 a0 ders0 l0 r0 old x Hd Ho HU n B N.
  assert (HD : dims dim (n 1%Z) (n 2%Z) (n 3%Z)).
  { pose proof (HU 1%Z ltac:(lia)) as (_ & P1 & _). split; [auto|]. unfold n.
    assert (P2 : (2 <= dim)%Z -> (0 <= p 2)%Z) by (intros; apply HU; lia). assert (P3 : (3 <= dim)%Z -> (0 <= p 3)%Z) by (intros; apply HU; lia).
    destruct (1 <=? dim)%Z eqn:E1; destruct (2 <=? dim)%Z eqn:E2; destruct (3 <=? dim)%Z eqn:E3; lia. }
  assert (NP : forall d i, (1 <= d <= dim)%Z -> (1 <= i <= count_of (n 1) (n 2) (n 3) d)%Z -> (0 <= i - 1 <= p d)%Z).
  { intros d i H1 H2. assert (C : (d = 1 \/ d = 2 \/ d = 3)%Z) by lia. assert (CO : count_of (n 1%Z) (n 2%Z) (n 3%Z) d = n d) by (destruct C as [-> | [-> | ->]]; reflexivity).
    rewrite CO in H2. unfold n in H2. replace (d <=? dim)%Z with true in H2 by lia. lia. }
  destruct (C68_tensor_product_derivatives dim order (n 1%Z) (n 2%Z) (n 3%Z) (fun d o i u => basis_bspline (s d) u (p d) (Z.min (p d) 4) (U d) (ndu0 d u) (a0 d u) (ders0 d u) (l0 d u) (r0 d u) o (i-1)%Z) old x HD) as (V & J & Y).
  { intros d o i H1 H2 H3. destruct (HU d H1) as (Q1 & Q2 & Q3 & Q4). apply (bspline_rows (p d) (m d) (U d) (s d) (ndu0 d) (a0 d) (ders0 d) (l0 d) (r0 d) Q1 Q2 Q3 Q4); [lia|]. apply NP; auto. }
  split; [|split; auto]. intros a Ha. unfold N, B. rewrite V. unfold tensor_value. f_equal. apply map_ext_in. intros d Hin. apply in_zseq in Hin.
  set (id := if (d =? 1)%Z then _ else _).
  assert (R : (1 <= id <= count_of (n 1) (n 2) (n 3) d)%Z).
  { destruct HD as (_ & I1 & J1 & K1 & _). unfold id, count_of. destruct (d =? 1)%Z; [pose proof (Z.mod_pos_bound (a-1) (n 1%Z) ltac:(lia)); lia|].
    destruct (d =? 2)%Z; [pose proof (Z.mod_pos_bound ((a-1)/n 1%Z) (n 2%Z) ltac:(lia)); lia|].
    rewrite Z.div_div by lia. pose proof (Z.div_pos (a-1) (n 1%Z*n 2%Z) ltac:(lia) ltac:(nia)). assert ((a-1) / (n 1%Z*n 2%Z) < n 3%Z)%Z by (apply Z.div_lt_upper_bound; nia). lia. }
  destruct (HU d ltac:(lia)) as (Q1 & Q2 & Q3 & Q4).
  pose proof (C31_derivatives (p d) (m d) (U d) (s d) (x d) (ndu0 d (x d)) (a0 d (x d)) (ders0 d (x d)) (l0 d (x d)) (r0 d (x d)) Q1 Q2 Q3 Q4 0%Z ltac:(lia)) as (C0 & _).
  specialize (C0 (id-1)%Z (NP d id ltac:(lia) R)). cbn [Z.to_nat is_derive_n] in C0. exact (eq_sym C0).
Qed.
Print Assumptions C68_bspline_products.

(** C33: NURBS. *)
Theorem C33_rational_functions :
  forall dim order nen W (N : pt -> nders) x, jet dim order nen N x -> symmetric dim order nen (N x) ->
  rsum (fun a => W a * n0 (N x) a) (zseq 1 nen) <> 0 ->
  let Q := fun y => rationalize order nen W (N y) in
  (forall y a, n0 (Q y) a = W a * n0 (N y) a / rsum (fun c => W c * n0 (N y) c) (zseq 1 nen)) /\
  jet dim (Z.min order 3) nen Q x /\ symmetric dim order nen (Q x) /\
  rsum (fun a => n0 (Q x) a) (zseq 1 nen) = 1 /\
  ((1 <= order)%Z -> forall i, rsum (fun a => n1 (Q x) i a) (zseq 1 nen) = 0) /\
  ((2 <= order)%Z -> forall i j, rsum (fun a => n2 (Q x) i j a) (zseq 1 nen) = 0) /\
  ((3 <= order)%Z -> forall i j k, rsum (fun a => n3 (Q x) i j k a) (zseq 1 nen) = 0).
Proof.
  intros dim order nen W N x HJ HS H0 Q. split; [|split; [|split; [|split; [|split; [|split]]]]].
  - intros y a. apply rat0.
  - exact (rat_jet dim order nen W N x HJ H0).
  - exact (rat_sym dim order nen W N x HS).
  - apply (rat_sum0 order nen W N x H0).
  - intros Ho i. etransitivity; [exact (S_ext nen _ _ (fun a Ha => rat1 dim order nen W N x i a Ho))|apply (sum_r1 order nen W N x H0)].
  - intros Ho i j. etransitivity; [exact (S_ext nen _ _ (fun a Ha => rat2 dim order nen W N x i j a Ho))|apply (sum_r2 order nen W N x H0)].
  - intros Ho i j k. apply (sum_r3 dim order nen W N x H0). auto.
Qed.
Print Assumptions C33_rational_functions.

(** C34: determinant and inverse matrix. *)
Theorem C34_inverse_matrix :
  forall dim (A : Z -> Z -> R), (1 <= dim <= 3)%Z ->
  determinant dim A = det dim A /\
  (det dim A <> 0 -> forall i j, (1 <= i <= dim)%Z -> (1 <= j <= dim)%Z ->
     let B := inverse dim (determinant dim A) A in
     rsum (fun k => A i k * B k j) (zseq 1 dim) = kd i j /\ rsum (fun k => B i k * A k j) (zseq 1 dim) = kd i j).
Proof.
  intros dim A Hd. split; [apply determinant_det; auto|]. intros D i j Hi Hj B. rewrite <- determinant_det in D by auto. split; [apply inverse_r|apply inverse_l]; auto.
Qed.
Print Assumptions C34_inverse_matrix.

(** C34: X(x) holds the coordinates n0 and their derivatives with respect to the parameters, xi is the inverse of the
    map on an open set V of physical space; then the arrays computed from X at xi(y) are the derivatives of xi. *)
Theorem C34_inverse_map_derivatives :
  forall dim order (V : pt -> Prop) (X : pt -> nders) (xi : pt -> pt) (old : pt -> inv_map), (1 <= dim <= 3)%Z ->
  (forall y, V y -> around dim y V) ->
  (forall y, V y -> jet dim (Z.min order 3) dim X (xi y)) ->
  (forall y, V y -> forall k, (1 <= k <= dim)%Z -> n0 (X (xi y)) k = y k) ->
  (forall y, V y -> forall c, (1 <= c <= dim)%Z -> cont_at dim (fun z => xi z c) y) ->
  (forall y, V y -> det dim (n1 (X (xi y))) <> 0) ->
  let E := fun y => inverse_map dim order (X (xi y)) (old y) in
  let d := fun i => (1 <= i <= dim)%Z in
  forall y, V y ->
  ((1 <= order)%Z -> e_det (E y) = det dim (n1 (X (xi y))) /\
     forall c, d c -> diff_at dim (fun z => xi z c) y (fun i => e1 (E y) i c)) /\
  ((2 <= order)%Z -> forall i c, d i -> d c -> diff_at dim (fun z => e1 (E z) i c) y (fun j => e2 (E y) j i c)) /\
  ((3 <= order)%Z -> forall i j c, d i -> d j -> d c -> diff_at dim (fun z => e2 (E z) j i c) y (fun k => e3 (E y) k j i c)).
Proof.
  intros dim order V X xi old Hd Vo HJ HI HC HD E d y Hy.
  assert (HD' : forall y, V y -> determinant dim (n1 (X (xi y))) <> 0) by (intros z Hz; rewrite determinant_det by auto; auto).
  split; [|split].
  - intros Ho. split; [unfold E; rewrite inv0 by auto; apply determinant_det; auto|]. intros c Hc. apply (dxi dim order V X xi old); auto.
  - intros Ho i c Hi Hc. apply (de1 dim order V X xi old); auto.
  - intros Ho i j c Hi Hj Hc. apply (de2 dim order V X xi old); auto.
Qed.
Print Assumptions C34_inverse_map_derivatives.

(** C35: derivatives of the shape functions, for arbitrary basis functions N and map X. *)
Theorem C35_shape_functions :
  forall dim order nen (V : pt -> Prop) (X N : pt -> nders) (xi : pt -> pt) (old : pt -> inv_map) (oldS : pt -> nders), (1 <= dim <= 3)%Z ->
  (forall y, V y -> around dim y V) ->
  (forall y, V y -> jet dim (Z.min order 3) dim X (xi y)) -> (forall y, V y -> symmetric dim order dim (X (xi y))) ->
  (forall y, V y -> jet dim (Z.min order 3) nen N (xi y)) -> (forall y, V y -> symmetric dim order nen (N (xi y))) ->
  (forall y, V y -> forall k, (1 <= k <= dim)%Z -> n0 (X (xi y)) k = y k) ->
  (forall y, V y -> forall c, (1 <= c <= dim)%Z -> cont_at dim (fun z => xi z c) y) ->
  (forall y, V y -> det dim (n1 (X (xi y))) <> 0) ->
  let F := fun y => shape_functions dim order (inverse_map dim order (X (xi y)) (old y)) (N (xi y)) (oldS y) in
  forall y, V y ->
  (forall a, n0 (F y) a = n0 (N (xi y)) a) /\ jet dim (Z.min order 3) nen F y /\ symmetric dim order nen (F y) /\
  (* isoparametric fields *)
  (forall k c, (1 <= k <= dim)%Z -> (forall z, V z -> rsum (fun a => c a * n0 (N (xi z)) a) (zseq 1 nen) = n0 (X (xi z)) k) ->
     ((1 <= order)%Z -> forall i, (1 <= i <= dim)%Z -> rsum (fun a => c a * n1 (F y) i a) (zseq 1 nen) = kd i k) /\
     ((2 <= order)%Z -> forall i j, (1 <= i <= dim)%Z -> (1 <= j <= dim)%Z -> rsum (fun a => c a * n2 (F y) j i a) (zseq 1 nen) = 0) /\
     ((3 <= order)%Z -> forall i j l, (1 <= i <= dim)%Z -> (1 <= j <= dim)%Z -> (1 <= l <= dim)%Z ->
        rsum (fun a => c a * n3 (F y) l j i a) (zseq 1 nen) = 0)).
Proof.
  intros dim order nen V X N xi old oldS Hd Vo HJ HS HJN HSN HI HC HD F y Hy.
  assert (HD' : forall y, V y -> determinant dim (n1 (X (xi y))) <> 0) by (intros z Hz; rewrite determinant_det by auto; auto).
  assert (J : forall z, V z -> jet dim (Z.min order 3) nen F z) by (intros z Hz; apply (shape_jet dim order nen V X N xi old oldS); auto).
  split; [reflexivity|]. split; [auto|]. split; [apply shape_sym; auto|].
  intros k c Hk H0. assert (H1 : forall z, V z -> rsum (fun a => c a * n0 (F z) a) (zseq 1 nen) = z k) by (intros z Hz; rewrite <- (HI z Hz k Hk), <- H0 by auto; reflexivity).
  split; [|split].
  - intros Ho i Hi. apply (iso1 dim (Z.min order 3) nen k V F c); auto; lia.
  - intros Ho i j Hi Hj. apply (iso2 dim (Z.min order 3) nen k V F c); auto; lia.
  - intros Ho i j l Hi Hj Hl. apply (iso3 dim (Z.min order 3) nen k V F c); auto; lia.
Qed.
Print Assumptions C35_shape_functions.

Lemma jet_weak dim o o' nen N x : (o' <= o)%Z -> jet dim o nen N x -> jet dim o' nen N x.
Proof.
  intros H J a Ha. destruct (J a Ha) as (J1 & J2 & J3 & J4). split; [|split; [|split]]; intros Ho; [apply J1|apply J2|apply J3|apply J4]; lia.
Qed.

(** C33-C35, C68 together: the tabulation of an element at the point xi(y). *)
Section Tabulation.
  Variables (dim order ina jna kna : Z) (Bf : Z -> Z -> Z -> R -> R) (W : option (Z -> R)) (oldN : pt -> nders).
  Hypothesis HD : dims dim ina jna kna.
  Let nen := (ina*jna*kna)%Z.
  Let f := rational_value nen W (tensor_value dim ina jna (fun d i => Bf d 0%Z i)).
  Let M := fun x : pt => let M := basis_funs dim order ina jna (fun d o i => Bf d o i (x d)) (oldN x) in
             match W with Some W => rationalize order nen W M | None => M end.
  Lemma tab_value x a : n0 (M x) a = f a x.
  Proof.
    unfold M, f, rational_value. destruct W as [W'|].
    - pose proof (rat0 order nen W' (fun x => basis_funs dim order ina jna (fun d o i => Bf d o i (x d)) (oldN x)) x a) as R. cbv beta in R. rewrite R.
      rewrite (tensor_n0 dim order ina jna kna) by auto. f_equal. apply S_ext. intros c Hc. rewrite (tensor_n0 dim order ina jna kna) by auto. auto.
    - apply (tensor_n0 dim order ina jna kna); auto.
  Qed.
  Lemma tab_jet x : (forall d o i, (1 <= d <= dim)%Z -> (0 <= o < order)%Z -> (1 <= i <= count_of ina jna kna d)%Z -> is_derive (Bf d o i) (x d) (Bf d (o+1)%Z i (x d))) ->
    (forall W', W = Some W' -> rsum (fun a => W' a * tensor_value dim ina jna (fun d i => Bf d 0%Z i) a x) (zseq 1 nen) <> 0) ->
    jet dim (Z.min order 3) nen M x /\ symmetric dim order nen (M x).
  Proof.
    intros HB HW. destruct (C68_tensor_product_derivatives dim order ina jna kna Bf oldN x HD HB) as (V & J & Y). unfold M. destruct W as [W'|].
    - destruct (C33_rational_functions dim order nen W' (fun x => basis_funs dim order ina jna (fun d o i => Bf d o i (x d)) (oldN x)) x J Y) as (_ & Q1 & Q2 & _); [|split; [exact Q1|exact Q2]].
      intros Z0. apply (HW W' eq_refl). rewrite <- Z0. apply S_ext. intros a Ha. cbv beta. rewrite V. auto.
    - split; auto. eapply jet_weak; [|exact J]. lia.
  Qed.
End Tabulation.

Theorem C35_tabulation :
  forall dim order ina jna kna (Bf : Z -> Z -> Z -> R -> R) (W : option (Z -> R)) (C : Z -> Z -> R) (V : pt -> Prop) (xi : pt -> pt)
         (oldN oldX oldS : pt -> nders) (oldE : pt -> inv_map),
  dims dim ina jna kna -> (1 <= order)%Z ->
  let nen := (ina*jna*kna)%Z in
  (* the functions of the element and the geometry map *)
  let f := rational_value nen W (tensor_value dim ina jna (fun d i => Bf d 0%Z i)) in
  let x := fun k u => rsum (fun a => C k a * f a u) (zseq 1 nen) in
  (forall y, V y -> around dim y V) ->
  (forall y, V y -> forall c, (1 <= c <= dim)%Z -> cont_at dim (fun z => xi z c) y) ->
  (forall y, V y -> forall k, (1 <= k <= dim)%Z -> x k (xi y) = y k) ->
  (forall y, V y -> forall d o i, (1 <= d <= dim)%Z -> (0 <= o < order)%Z -> (1 <= i <= count_of ina jna kna d)%Z ->
     is_derive (Bf d o i) (xi y d) (Bf d (o+1)%Z i (xi y d))) ->
  (forall y, V y -> forall W', W = Some W' -> rsum (fun a => W' a * tensor_value dim ina jna (fun d i => Bf d 0%Z i) a (xi y)) (zseq 1 nen) <> 0) ->
  (forall y, V y -> forall J, (forall k, (1 <= k <= dim)%Z -> diff_at dim (x k) (xi y) (fun q => J q k)) -> det dim J <> 0) ->
  let tab := fun y => tabulate dim order ina jna kna (fun d o i => Bf d o i (xi y d)) W (Some C) (oldN (xi y)) (oldX (xi y)) (oldS y) (oldE y) in
  let F := fun y => snd (fst (tab y)) in
  let E := fun y => snd (tab y) in
  forall y, V y ->
  (forall a, n0 (F y) a = f a (xi y)) /\
  jet dim (Z.min order 3) nen F y /\ symmetric dim order nen (F y) /\
  (forall c, (1 <= c <= dim)%Z -> diff_at dim (fun z => xi z c) y (fun i => e1 (E y) i c)) /\
  (forall J, (forall k, (1 <= k <= dim)%Z -> diff_at dim (x k) (xi y) (fun q => J q k)) -> e_det (E y) = det dim J) /\
  (forall k i, (1 <= k <= dim)%Z -> (1 <= i <= dim)%Z -> rsum (fun a => C k a * n1 (F y) i a) (zseq 1 nen) = kd i k).
Proof.
  intros dim order ina jna kna Bf W C V xi oldN oldX oldS oldE HD Ho nen f x Vo HC HX HB HW HJ tab F E y Hy.
  pose proof HD as (Hd & _).
  set (M := fun u : pt => let M := basis_funs dim order ina jna (fun d o i => Bf d o i (u d)) (oldN u) in
             match W with Some W => rationalize order nen W M | None => M end).
  set (X := fun u : pt => geometry_map order nen C (M u) (oldX u)).
  assert (VM : forall u a, n0 (M u) a = f a u) by (intros; apply (tab_value dim order ina jna kna Bf W oldN HD)).
  assert (VX : forall u k, n0 (X u) k = x k u) by (intros u k; unfold X; rewrite geo0; apply S_ext; intros; rewrite VM; auto).
  assert (JM : forall z, V z -> jet dim (Z.min order 3) nen M (xi z) /\ symmetric dim order nen (M (xi z))).
  { intros z Hz. apply (tab_jet dim order ina jna kna Bf W oldN HD (xi z)); auto. }
  assert (JX : forall z, V z -> jet dim (Z.min order 3) dim X (xi z)).
  { intros z Hz. pose proof (geo_jet dim (Z.min order 3) nen dim C M oldX (xi z) (proj1 (JM z Hz))) as G. clear -G Ho.
    intros k Hk. destruct (G k Hk) as (G1 & G2 & G3 & _). split; [|split; [|split]].
    - intros H. eapply diff_ext; [|eapply diff_grad; [|apply (G1 H)]].
      + intros u. unfold X. rewrite !geo0. auto.
      + intros i Hi. cbv beta. unfold X. rewrite !geo1 by lia. auto.
    - intros H i Hi. eapply diff_ext; [|eapply diff_grad; [|apply (G2 H i Hi)]].
      + intros u. unfold X. rewrite !geo1 by lia. auto.
      + intros j Hj. cbv beta. unfold X. rewrite !geo2 by lia. auto.
    - intros H i j Hi Hj. eapply diff_ext; [|eapply diff_grad; [|apply (G3 H i j Hi Hj)]].
      + intros u. unfold X. rewrite !geo2 by lia. auto.
      + intros l Hl. cbv beta. unfold X. rewrite !geo3 by lia. auto.
    - intros; lia. }
  assert (SX : forall z, V z -> symmetric dim order dim (X (xi z))) by (intros z Hz; apply geo_sym, JM; auto).
  assert (DX : forall z, V z -> forall k, (1 <= k <= dim)%Z -> diff_at dim (x k) (xi z) (fun q => n1 (X (xi z)) q k)).
  { intros z Hz k Hk. eapply diff_ext; [intros u; apply VX|]. apply (JX z Hz k Hk). lia. }
  assert (HI : forall z, V z -> forall k, (1 <= k <= dim)%Z -> n0 (X (xi z)) k = z k) by (intros; rewrite VX; auto).
  assert (Hdet : forall z, V z -> det dim (n1 (X (xi z))) <> 0) by (intros z Hz; apply (HJ z Hz); auto).
  destruct (C35_shape_functions dim order nen V X M xi oldE oldS Hd Vo JX SX (fun z Hz => proj1 (JM z Hz)) (fun z Hz => proj2 (JM z Hz)) HI HC Hdet y Hy) as (S0 & S1 & S2 & S3).
  destruct (C34_inverse_map_derivatives dim order V X xi oldE Hd Vo JX HI HC Hdet y Hy) as (E1 & _). destruct (E1 Ho) as (E0 & E1').
  split; [intros a; exact (VM (xi y) a)|]. split; [exact S1|]. split; [exact S2|]. split; [exact E1'|]. split.
  - intros J HJJ. change (e_det (E y)) with (e_det (inverse_map dim order (X (xi y)) (oldE y))). rewrite E0.
    assert (A : forall q k, (1 <= q <= dim)%Z -> (1 <= k <= dim)%Z -> n1 (X (xi y)) q k = J q k).
    { intros q k Hq Hk. exact (diff_unique dim _ _ _ _ q (DX y Hy k Hk) (HJJ k Hk) Hq). }
    rewrite <- !determinant_det by auto. unfold determinant.
    assert (CC : (dim = 1 \/ dim = 2 \/ dim = 3)%Z) by lia. destruct CC as [E' | [E' | E']]; rewrite E' in A |- *; cbn [Z.eqb Pos.eqb]; rewrite !A by lia; auto.
  - intros k i Hk Hi. apply (S3 k (fun a => C k a) Hk); auto. intros z Hz. rewrite VX. unfold x. apply S_ext. intros a Ha. rewrite VM. auto.
Qed.
Print Assumptions C35_tabulation.

(** C54: normals on the faces. *)
Definition tangent (axis k : Z) : Z := if (k <=? axis)%Z then k else (k+1)%Z.
Theorem C54_normal :
  forall dim axis side (F : Z -> Z -> R), (1 <= dim <= 3)%Z -> (0 <= axis < dim)%Z -> (side = 0 \/ side = 1)%Z -> det dim F <> 0 ->
  let '(dS, n) := boundary_normal sqrt dim axis side (Some F) in
  dot dim n n = 1 /\
  (forall t, (1 <= t <= dim)%Z -> t <> (axis+1)%Z -> dot dim n (F t) = 0) /\
  0 < dS /\ dS * dS = det (dim-1) (fun a b => dot dim (F (tangent axis a)) (F (tangent axis b))) /\
  dS * dot dim n (F (axis+1)%Z) = (if (side =? 0)%Z then - det dim F else det dim F) /\
  (forall j, (1 <= j <= dim)%Z -> snd (boundary_normal sqrt dim axis (1-side) (Some F)) j = - n j).
Proof.
  intros dim axis side F Hd Ha Hs HD. rewrite <- determinant_det in HD by auto.
  unfold boundary_normal. destruct (get_normal sqrt dim axis side F) as [dS n] eqn:E.
  pose proof (get_normal_raw dim axis side F Hd Ha) as [E1 E2]. rewrite E in E1, E2. cbn [fst snd] in E1, E2.
  pose proof (get_normal_raw dim axis (1-side) F Hd Ha) as [_ E3].
  set (r := raw_normal dim axis F) in *. pose proof (raw_pos dim axis F Hd Ha HD) as P. fold r in P.
  set (q := sqrt (dot dim r r)) in *. assert (q0 : 0 < q) by (apply sqrt_lt_R0; auto). assert (qq : q * q = dot dim r r) by (apply sqrt_sqrt; lra).
  set (s := if (side =? 0)%Z then -1 else 1) in *. assert (ss : s * s = 1) by (unfold s; destruct (side =? 0)%Z; ring).
  assert (DN : forall v, dot dim n v = s / q * dot dim r v).
  { intros v. unfold dot. rewrite S_mult_l. apply S_ext. intros j Hj. rewrite E2 by auto. unfold Rdiv. ring. }
  subst dS. split; [|split; [|split; [|split; [|split]]]].
  - rewrite DN. assert (DN2 : dot dim r n = s / q * dot dim r r). { rewrite <- DN. unfold dot. rewrite (S_ext dim (fun j => r j * n j) (fun j => n j * r j)) by (intros; ring). fold (dot dim n r). auto. }
    rewrite DN2, <- qq. replace (s / q * (s / q * (q * q))) with (s * s) by (field; lra). auto.
  - intros t Ht Hn. rewrite DN. unfold r. rewrite raw_tangent by auto. ring.
  - auto.
  - rewrite qq. unfold r. assert (C : (dim = 1 \/ dim = 2 \/ dim = 3)%Z) by lia. clear -Ha C. destruct C as [-> | [-> | ->]].
    + assert (axis = 0)%Z by lia. subst axis. cbv -[Rplus Rminus Rmult Rdiv Rinv Ropp IZR R]. ring.
    + assert (C : (axis = 0 \/ axis = 1)%Z) by lia. destruct C as [-> | ->]; cbv -[Rplus Rminus Rmult Rdiv Rinv Ropp IZR R]; ring.
    + assert (C : (axis = 0 \/ axis = 1 \/ axis = 2)%Z) by lia. destruct C as [-> | [-> | ->]]; cbv -[Rplus Rminus Rmult Rdiv Rinv Ropp IZR R]; ring.
  - rewrite DN. unfold r. rewrite raw_axis by auto. rewrite determinant_det by auto. unfold s. destruct (side =? 0)%Z; field; lra.
  - intros j Hj. rewrite E3, E2 by auto. unfold s. assert (SS : (1 - side =? 0)%Z = negb (side =? 0)%Z) by lia. rewrite SS. destruct (side =? 0)%Z; cbn [negb]; ring.
Qed.
Print Assumptions C54_normal.

(** C54: without a geometry. *)
Theorem C54_normal_no_geometry :
  forall dim axis side, (0 <= axis < dim)%Z ->
  let '(dS, n) := boundary_normal sqrt dim axis side None in
  dS = 1 /\ forall j, (1 <= j <= dim)%Z -> n j = (if (side =? 0)%Z then -1 else 1) * kd j (axis+1).
Proof. intros dim axis side Ha. cbn. split; auto. intros j Hj. unfold kd. destruct (j =? axis + 1)%Z; ring. Qed.
Print Assumptions C54_normal_no_geometry.

(** C69: evaluation of a discrete field and its derivatives at a point. *)
Theorem C69_field_evaluation :
  forall dim order nen (N : pt -> nders) x (U : Z -> R), jet dim order nen N x ->
  let d := fun i => (1 <= i <= dim)%Z in
  let u := fun y => rsum (fun a => U a * n0 (N y) a) (zseq 1 nen) in
  let grad := fun y i => eval_field nen (fun a => n1 (N y) i a) U in
  let hess := fun y j i => eval_field nen (fun a => n2 (N y) j i a) U in
  let der3 := fun y k j i => eval_field nen (fun a => n3 (N y) k j i a) U in
  let der4 := fun y l k j i => eval_field nen (fun a => n4 (N y) l k j i a) U in
  eval_field nen (n0 (N x)) U = u x /\
  ((1 <= order)%Z -> diff_at dim u x (grad x)) /\
  ((2 <= order)%Z -> forall i, d i -> diff_at dim (fun y => grad y i) x (fun j => hess x j i)) /\
  eval_del2 nen dim (n2 (N x)) U = rsum (fun i => hess x i i) (zseq 1 dim) /\
  ((3 <= order)%Z -> forall i j, d i -> d j -> diff_at dim (fun y => hess y j i) x (fun k => der3 x k j i)) /\
  ((4 <= order)%Z -> forall i j k, d i -> d j -> d k -> diff_at dim (fun y => der3 y k j i) x (fun l => der4 x l k j i)).
Proof.
  intros dim order nen N x U HJ d u grad hess der3 der4.
  assert (EV : forall f, eval_field nen f U = S_ nen (fun a => U a * f a)).
  { intros f. unfold eval_field. rewrite (loop_sum nen _ (fun a => U a * f a)) by (intros; ring). ring. }
  split; [apply EV|]. split; [|split; [|split; [|split]]].
  - intros Ho. eapply diff_grad; [intros i Hi; symmetry; apply EV|]. apply (diff_S dim nen). intros a Ha. apply diff_scal. apply (HJ a Ha); auto.
  - intros Ho i Hi. eapply diff_ext; [intros y; symmetry; apply EV|]. eapply diff_grad; [intros j Hj; symmetry; apply EV|]. apply (diff_S dim nen). intros a Ha. apply diff_scal. apply (HJ a Ha); auto.
  - unfold eval_del2. rewrite (loop_sum nen _ (fun a => S_ dim (fun i => n2 (N x) i i a * U a))) by (intros a Ha s; apply loop_sum; auto).
    rewrite Rplus_0_l, S_comm. apply S_ext. intros i Hi. unfold hess. rewrite EV. apply S_ext. intros; ring.
  - intros Ho i j Hi Hj. eapply diff_ext; [intros y; symmetry; apply EV|]. eapply diff_grad; [intros k Hk; symmetry; apply EV|]. apply (diff_S dim nen). intros a Ha. apply diff_scal. apply (HJ a Ha); auto.
  - intros Ho i j k Hi Hj Hk. eapply diff_ext; [intros y; symmetry; apply EV|]. eapply diff_grad; [intros l Hl; symmetry; apply EV|]. apply (diff_S dim nen). intros a Ha. apply diff_scal. apply (HJ a Ha); auto.
Qed.
Print Assumptions C69_field_evaluation.

(** C71: IGAPointFormGradGeomMap and IGAPointFormInvGradGeomMap. F(a,i) is the derivative of coordinate i with respect
    to the reference variable t_a of the element, u_a = c_a + L_a t_a, and G is a left inverse of it, also for curves
    and surfaces in space. *)
Theorem C71_jacobian_and_left_inverse :
  forall nen nsd dim (L : Z -> R) (geometry : option (Z -> Z -> R)) (M : pt -> nders) (oldX : nders) (oldE : inv_map) order t (c : Z -> R),
  (1 <= dim <= 3)%Z -> (1 <= order)%Z -> (geometry = None -> nsd = dim) -> (forall a, (1 <= a <= dim)%Z -> L a <> 0) ->
  let ref := fun t : pt => fun a => c a + L a * t a in
  let x := fun i u => match geometry with Some C => rsum (fun n => C i n * n0 (M u) n) (zseq 1 nen) | None => u i end in
  jet dim 1 nen M (ref t) ->
  let N1 := n1 (M (ref t)) in
  let X1 := n1 (match geometry with Some C => geometry_map order nen C (M (ref t)) oldX | None => oldX end) in
  let U1 := e1 (match geometry with Some C => inverse_map dim order (geometry_map order nen C (M (ref t)) oldX) oldE | None => oldE end) in
  let F := form_grad nen nsd dim L geometry N1 X1 in
  let G := form_inv_grad nen nsd dim L geometry N1 U1 in
  (forall i, (1 <= i <= nsd)%Z -> diff_at dim (fun s => x i (ref s)) t (fun a => F a i)) /\
  (det dim (fun a b => rsum (fun i => F a i * F b i) (zseq 1 nsd)) <> 0 -> forall a b, (1 <= a <= dim)%Z -> (1 <= b <= dim)%Z ->
     rsum (fun i => G i a * F b i) (zseq 1 nsd) = kd a b).
Proof.
  intros nen nsd dim L geometry M oldX oldE order t c Hd Ho Hn HL ref x HJ N1 X1 U1 F G.
  assert (DR : forall a, (1 <= a <= dim)%Z -> diff_at dim (fun s => ref s a) t (fun b => L a * kd b a)).
  { intros a Ha. unfold ref. eapply diff_grad; [|apply (diff_plus dim _ _ t _ _ (diff_const dim (c a) t) (diff_scal dim (L a) _ t _ (diff_coord dim a t Ha)))]. intros b Hb. cbv beta. ring. }
  destruct geometry as [C|].
  - assert (FF : forall a i, F a i = S_ nen (fun n => N1 a n * C i n) * L a).
    { intros a i. unfold F, form_grad, X1, get_grad. destruct (dim =? nsd)%Z; [rewrite geo1 by auto|rewrite fsum_S]; f_equal. apply S_ext. intros. unfold N1. ring. }
    split.
    + intros i Hi. unfold x.
      assert (D : diff_at dim (fun u => S_ nen (fun n => C i n * n0 (M u) n)) (ref t) (fun a => S_ nen (fun n => C i n * N1 a n))).
      { apply (diff_S dim nen). intros n Hn'. apply diff_scal. apply (HJ n Hn'). lia. }
      eapply diff_grad; [|apply (diff_comp dim dim _ ref t _ _ D DR)]. intros b Hb. cbv beta. rewrite FF.
      erewrite S_ext; [|intros k Hk; rewrite (Rmult_comm (L k)), <- Rmult_assoc; rewrite (Rmult_comm _ (kd b k)), Rmult_assoc; reflexivity].
      assert (KD : forall k, kd b k = kd k b) by (intros; unfold kd; rewrite Z.eqb_sym; auto).
      erewrite S_ext; [|intros k Hk; rewrite KD; reflexivity]. rewrite (rsum_kd_l dim b (fun k => S_ nen (fun n => C i n * N1 k n) * L k)) by auto. f_equal. apply S_ext. intros; ring.
    + intros HD a b Ha Hb.
      set (F0 := fun a i => S_ nen (fun n => N1 a n * C i n)) in *.
      assert (GL : forall a b, (1 <= a <= dim)%Z -> (1 <= b <= dim)%Z -> S_ nsd (fun i => (if (dim =? nsd)%Z then U1 i a else get_inv_grad nen nsd dim N1 C i a) * F0 b i) = kd a b).
      { intros a' b' Ha' Hb'. rewrite <- determinant_det in HD by auto.
        assert (HD0 : determinant dim (fun a b => S_ nsd (fun i => F0 a i * F0 b i)) <> 0).
        { intros Z0. apply HD. 
          assert (HG : forall a b, S_ nsd (fun i => F a i * F b i) = L a * L b * S_ nsd (fun i => F0 a i * F0 b i)).
          { intros a1 b1. rewrite S_mult_l. apply S_ext. intros i Hi. rewrite !FF. fold (F0 a1 i) (F0 b1 i). ring. }
          transitivity ((if (dim =? 1)%Z then L 1%Z * L 1%Z else if (dim =? 2)%Z then (L 1%Z * L 1%Z) * (L 2%Z * L 2%Z) else (L 1%Z * L 1%Z) * (L 2%Z * L 2%Z) * (L 3%Z * L 3%Z)) * determinant dim (fun a b => S_ nsd (fun i => F0 a i * F0 b i))); [|rewrite Z0; ring].
          unfold determinant. cbv beta zeta. rewrite !HG. assert (CC : (dim = 1 \/ dim = 2 \/ dim = 3)%Z) by lia. destruct CC as [-> | [-> | ->]]; cbv beta iota delta [Z.eqb Pos.eqb]; ring. }
        destruct (dim =? nsd)%Z eqn:E; [|apply get_inv_grad_left; auto]. apply Z.eqb_eq in E. subst nsd.
        assert (X1F : forall a i, X1 a i = F0 a i) by (intros; unfold X1, F0; rewrite geo1 by auto; apply S_ext; intros; unfold N1; ring).
        assert (D1 : determinant dim X1 <> 0).
        { intros Z0. apply HD0. transitivity (determinant dim X1 * determinant dim X1); [|rewrite Z0; ring].
          unfold determinant. rewrite !X1F. assert (CC : (dim = 1 \/ dim = 2 \/ dim = 3)%Z) by lia. clearbody F0. clear -CC.
          destruct CC as [-> | [-> | ->]]; cbv -[Rplus Rminus Rmult Rdiv Rinv Ropp IZR R]; ring. }
        assert (U1E : U1 = inverse dim (determinant dim X1) X1) by (unfold U1; rewrite inv1 by auto; auto).
        rewrite U1E. 
        assert (KD : kd a' b' = kd b' a') by (unfold kd; rewrite Z.eqb_sym; auto).
        rewrite KD. rewrite <- (inverse_r dim X1 b' a' Hd D1 Hb' Ha'). apply S_ext. intros i Hi. rewrite X1F. ring. }
      transitivity (L b / L a * S_ nsd (fun i => (if (dim =? nsd)%Z then U1 i a else get_inv_grad nen nsd dim N1 C i a) * F0 b i)).
      * rewrite S_mult_l. apply S_ext. intros i Hi. rewrite FF. fold (F0 b i). unfold G, form_inv_grad. unfold Rdiv. ring.
      * rewrite GL by auto. unfold kd. destruct (Z.eqb_spec a b) as [-> | N]; [field; apply HL; auto|ring].
  - specialize (Hn eq_refl). subst nsd. split.
    + intros i Hi. unfold x. eapply diff_grad; [|apply (DR i Hi)]. intros b Hb. cbv beta. unfold F, form_grad, kd. destruct (Z.eqb_spec b i) as [-> | N]; ring.
    + intros _ a b Ha Hb. rewrite <- (S_kd_r dim b (fun i => kd a i) Hb). apply S_ext. intros i Hi. unfold G, F, form_inv_grad, form_grad, kd.
      rewrite (Z.eqb_sym b i). rewrite (Z.eqb_sym i a). destruct (Z.eqb_spec a i) as [-> | N1']; destruct (Z.eqb_spec i b) as [-> | N2]; try ring. field. apply HL; auto.
Qed.
Print Assumptions C71_jacobian_and_left_inverse.

(** ** Concrete cases *)
(** The linear functions 1-u, u on one element. *)
Definition lin (d o i : Z) (u : R) : R :=
  if (o =? 0)%Z then (if (i =? 1)%Z then 1 - u else u) else if (o =? 1)%Z then (if (i =? 1)%Z then -1 else 1) else 0.
Lemma lin_rows d o i u : (0 <= o)%Z -> is_derive (lin d o i) u (lin d (o+1)%Z i u).
Proof.
  intros Ho. unfold lin. destruct (Z.eqb_spec o 0) as [-> | N0'].
  - change (0 + 1 =? 0)%Z with false. change (0 + 1 =? 1)%Z with true. cbv iota. destruct (i =? 1)%Z; auto_derive; auto; ring.
  - replace (o + 1 =? 0)%Z with false by lia. replace (o + 1 =? 1)%Z with false by lia. destruct (Z.eqb_spec o 1) as [-> | N1']; [destruct (i =? 1)%Z|]; auto_derive; auto; ring.
Qed.
Definition no_ders : nders := mk_nders (fun _ => 0) (fun _ _ => 0) (fun _ _ _ => 0) (fun _ _ _ _ => 0) (fun _ _ _ _ _ => 0).
Definition no_map : inv_map := mk_inv_map 0 (fun _ _ => 0) (fun _ _ _ => 0) (fun _ _ _ _ => 0) (fun _ _ _ _ _ => 0).
Example ex_dims : dims 1 2 1 1 /\ dims 3 2 3 4. Proof. unfold dims. lia. Qed.
Definition linN (y : pt) : nders := basis_funs 1 4 2 1 (fun d o i => lin d o i (y d)) no_ders.
Example ex_lin_jet x : jet 1 4 2 linN x /\ symmetric 1 4 2 (linN x).
Proof.
  destruct (C68_tensor_product_derivatives 1 4 2 1 1 lin (fun _ => no_ders) x) as (_ & J & Y).
  - unfold dims. lia.
  - intros d o i H1 H2 H3. apply lin_rows. lia.
  - split; [exact J|exact Y].
Qed.

(** C68: quadratic by linear B-splines in two dimensions. *)
Example ex_bspline_products : exists (p m s : Z -> Z) (U : Z -> Z -> R),
  forall d, (1 <= d <= 2)%Z -> nondecreasing (O:=Rord) (m d) (U d) /\ (0 <= p d)%Z /\ (p d <= s d <= m d - p d - 1)%Z /\ U d (s d) < U d (s d + 1)%Z.
Proof.
  exists (fun d => 3 - d)%Z, (fun _ => 5%Z), (fun _ => 2%Z), (fun d i => if (i <=? 2)%Z then 0 else 1). intros d Hd. split; [|split; [|split]].
  - intros i j H1 H2 H3. apply kle_R. destruct (i <=? 2)%Z eqn:E1; destruct (j <=? 2)%Z eqn:E2; try lra; lia.
  - lia.
  - lia.
  - simpl. lra.
Qed.

(** C33: weights 1, 2. *)
Definition W12 (a : Z) : R := if (a =? 1)%Z then 1 else 2.
Lemma W12_sum (x : pt) : rsum (fun a => W12 a * n0 (linN x) a) (zseq 1 2) = 1 + x 1%Z.
Proof. cbv -[Rplus Rminus Rmult Rdiv Rinv Ropp IZR R]. ring. Qed.
Example ex_rational : exists x : pt, jet 1 4 2 linN x /\ symmetric 1 4 2 (linN x) /\ rsum (fun a => W12 a * n0 (linN x) a) (zseq 1 2) <> 0.
Proof. exists (fun _ => 1/2). destruct (ex_lin_jet (fun _ => 1/2)) as [J Y]. split; [auto|split; [auto|]]. rewrite W12_sum. lra. Qed.

(** C66: fourth derivatives of rational functions are stored as zero. *)
Theorem C66_rational_fourth_derivative_refuted :
  exists dim nen W (N : pt -> nders) x, jet dim 4 nen N x /\ symmetric dim 4 nen (N x) /\
  rsum (fun a => W a * n0 (N x) a) (zseq 1 nen) <> 0 /\ ~ jet dim 4 nen (fun y => rationalize 4 nen W (N y)) x.
Proof.
  exists 1%Z, 2%Z, W12, linN, (fun _ => 0). destruct (ex_lin_jet (fun _ => 0)) as [J Y]. split; [auto|]. split; [auto|]. split; [rewrite W12_sum; lra|].
  intros H. destruct (H 2%Z ltac:(lia)) as (_ & _ & _ & H4). specialize (H4 ltac:(lia) 1%Z 1%Z 1%Z ltac:(lia) ltac:(lia) ltac:(lia)).
  pose proof (diff_partial 1 _ _ _ 1 ltac:(lia) H4) as D. cbv beta in D.
  change (n4 (rationalize 4 2 W12 (linN (fun _ => 0))) 1%Z 1%Z 1%Z 1%Z 2%Z) with 0 in D.
  assert (E : is_derive (fun t => 12 / (1 + t) ^ 4) 0 0).
  { eapply is_derive_ext_loc; [|exact D]. assert (P : 0 < 1/2) by lra. exists (mkposreal _ P). intros t Ht. unfold ball in Ht. simpl in Ht. unfold AbsRing_ball, abs, minus, plus, opp in Ht. simpl in Ht.
    assert (T : -1/2 < t) by (apply Rabs_lt_between in Ht; lra).
    cbv -[Rplus Rminus Rmult Rdiv Rinv Ropp IZR R pow]. field. lra. }
  assert (E2 : is_derive (fun t => 12 / (1 + t) ^ 4) 0 (-48)) by (auto_derive; [lra|field]).
  apply is_derive_unique in E, E2. lra.
Qed.
Print Assumptions C66_rational_fourth_derivative_refuted.

(** C34, C35: the map (u1 + u2^2, u2) and its inverse. *)
Definition shear (u : pt) : nders := mk_nders
  (fun k => if (k =? 1)%Z then u 1%Z + u 2%Z * u 2%Z else u 2%Z)
  (fun q k => if (k =? 1)%Z then (if (q =? 1)%Z then 1 else 2 * u 2%Z) else (if (q =? 1)%Z then 0 else 1))
  (fun r q k => if (k =? 1)%Z && (q =? 2)%Z && (r =? 2)%Z then 2 else 0)
  (fun _ _ _ _ => 0) (fun _ _ _ _ _ => 0).
Definition shear_inv (y : pt) (c : Z) : R := if (c =? 1)%Z then y 1%Z - y 2%Z * y 2%Z else y 2%Z.
Example ex_shear : (forall y, True -> around 2 y (fun _ => True)) /\
  (forall y, True -> jet 2 3 2 shear (shear_inv y)) /\ (forall y, True -> symmetric 2 3 2 (shear (shear_inv y))) /\
  (forall y, True -> forall k, (1 <= k <= 2)%Z -> n0 (shear (shear_inv y)) k = y k) /\
  (forall y, True -> forall c, (1 <= c <= 2)%Z -> cont_at 2 (fun z => shear_inv z c) y) /\
  (forall y, True -> det 2 (n1 (shear (shear_inv y))) <> 0).
Proof.
  assert (DC : forall k y, (1 <= k <= 2)%Z -> diff_at 2 (fun z => z k) y (fun i => kd i k)) by (intros; apply diff_coord; auto).
  split; [intros; apply around_true; auto|]. split; [|split; [|split; [|split]]].
  - intros y _ k Hk. set (u := shear_inv y). split; [|split; [|split]].
    + intros _. cases12 k; cbn [n0 shear]; change (1 =? 1)%Z with true; change (2 =? 1)%Z with false; cbv iota.
      * eapply diff_grad; [|apply diff_plus; [apply (DC 1%Z); lia|apply diff_mult; apply (DC 2%Z); lia]]. intros i Hi. cases12 i; cbv -[Rplus Rminus Rmult Rdiv Rinv Ropp IZR R u]; ring.
      * eapply diff_grad; [|apply (DC 2%Z); lia]. intros i Hi. cases12 i; cbv -[Rplus Rminus Rmult Rdiv Rinv Ropp IZR R u]; ring.
    + intros _ i Hi. cbn [n1 shear]. cases12 k; cases12 i; change (1 =? 1)%Z with true; change (2 =? 1)%Z with false; cbv iota.
      * eapply diff_grad; [|apply diff_const]. intros j Hj. cases12 j; reflexivity.
      * eapply diff_grad; [|apply diff_scal; apply (DC 2%Z); lia]. intros j Hj. cases12 j; cbv -[Rplus Rminus Rmult Rdiv Rinv Ropp IZR R u]; ring.
      * eapply diff_grad; [|apply diff_const]. intros j Hj. cases12 j; reflexivity.
      * eapply diff_grad; [|apply diff_const]. intros j Hj. cases12 j; reflexivity.
    + intros _ i j Hi Hj. cbn [n2 n3 shear]. apply (diff_const 2).
    + intros; lia.
  - intros y _ k Hk. split; [|intros _ i j l _ _ _; split; reflexivity]. intros _ i j Hi Hj. cases12 k; cases12 i; cases12 j; reflexivity.
  - intros y _ k Hk. cases12 k; cbv -[Rplus Rminus Rmult Rdiv Rinv Ropp IZR R]; ring.
  - intros y _ c Hc. cases12 c; cbn [shear_inv]; unfold shear_inv; change (1 =? 1)%Z with true; change (2 =? 1)%Z with false; cbv iota.
    + eapply diff_cont. apply diff_minus; [apply (DC 1%Z); lia|apply diff_mult; apply (DC 2%Z); lia].
    + eapply diff_cont. apply (DC 2%Z). lia.
  - intros y _. replace (det 2 (n1 (shear (shear_inv y)))) with 1; [lra|]. cbv -[Rplus Rminus Rmult Rdiv Rinv Ropp IZR R]. ring.
Qed.
(** The computed second derivative of the first parameter: xi_1 = y1 - y2^2. *)
Example ex_shear_e2 y : e2 (inverse_map 2 3 (shear (shear_inv y)) no_map) 2%Z 2%Z 1%Z = -2.
Proof. cbv -[Rplus Rminus Rmult Rdiv Rinv Ropp IZR R]. field. Qed.

(** C66: fourth derivatives of mapped functions are stored as zero, already for the identity map. *)
Theorem C66_mapped_fourth_derivative_refuted :
  exists dim nen (X N : pt -> nders) (xi : pt -> pt),
  (forall y, jet dim 4 dim X (xi y)) /\ (forall y, jet dim 4 nen N (xi y)) /\
  (forall y k, (1 <= k <= dim)%Z -> n0 (X (xi y)) k = y k) /\ (forall y c, (1 <= c <= dim)%Z -> cont_at dim (fun z => xi z c) y) /\
  (forall y, det dim (n1 (X (xi y))) <> 0) /\
  forall old oldS, exists y, ~ jet dim 4 nen (fun y => shape_functions dim 4 (inverse_map dim 4 (X (xi y)) (old y)) (N (xi y)) (oldS y)) y.
Proof.
  exists 1%Z, 1%Z, (fun u => mk_nders (fun _ => u 1%Z) (fun _ _ => 1) (fun _ _ _ => 0) (fun _ _ _ _ => 0) (fun _ _ _ _ _ => 0)),
    (fun u => mk_nders (fun _ => (u 1%Z)^4) (fun _ _ => 4 * (u 1%Z)^3) (fun _ _ _ => 12 * (u 1%Z)^2) (fun _ _ _ _ => 24 * u 1%Z) (fun _ _ _ _ _ => 24)), (fun y => y).
  assert (DC : forall x, diff_at 1 (fun z => z 1%Z) x (fun i => kd i 1)) by (intros; apply diff_coord; lia).
  assert (K : forall i, (1 <= i <= 1)%Z -> kd i 1 = 1) by (intros i Hi; unfold kd; replace (i =? 1)%Z with true by lia; auto).
  split; [|split; [|split; [|split; [|split]]]].
  - intros y a Ha. cbn [n0 n1 n2 n3 n4]. split; [|split; [|split]]; intros; try apply diff_const. eapply diff_grad; [exact K|apply DC].
  - intros y a Ha. cbn [n0 n1 n2 n3 n4].
    assert (G : forall phi d, is_derive phi (y 1%Z) d -> diff_at 1 (fun z => phi (z 1%Z)) y (fun _ => d)) by (intros phi d Hd; apply (diff_fun1 phi (y 1%Z)); auto).
    split; [|split; [|split]]; intros.
    + apply (G (fun t => t ^ 4)). auto_derive; auto; ring.
    + apply (G (fun t => 4 * t ^ 3)). auto_derive; auto; ring.
    + apply (G (fun t => 12 * t ^ 2)). auto_derive; auto; ring.
    + apply (G (fun t => 24 * t)). auto_derive; auto; ring.
  - intros y k Hk. cbn [n0]. f_equal. lia.
  - intros y c Hc. replace c with 1%Z by lia. eapply diff_cont. apply DC.
  - intros y. replace (det 1 _) with 1; [lra|]. cbv -[Rplus Rminus Rmult Rdiv Rinv Ropp IZR R]. ring.
  - intros old oldS. exists (fun _ => 0). intros H. destruct (H 1%Z ltac:(lia)) as (_ & _ & _ & H4). specialize (H4 ltac:(lia) 1%Z 1%Z 1%Z ltac:(lia) ltac:(lia) ltac:(lia)).
    pose proof (diff_partial 1 _ _ _ 1 ltac:(lia) H4) as D. cbv beta in D.
    match type of D with is_derive _ _ ?d => change d with 0 in D end.
    assert (E : is_derive (fun t => 24 * t) 0 0).
    { eapply is_derive_ext; [|exact D]. intros t. cbv -[Rplus Rminus Rmult Rdiv Rinv Ropp IZR R pow]. field. }
    assert (E2 : is_derive (fun t => 24 * t) 0 24) by (auto_derive; auto; ring).
    apply is_derive_unique in E, E2. lra.
Qed.
Print Assumptions C66_mapped_fourth_derivative_refuted.

(** C35: the NURBS map 2u/(1+u) of one linear element with weights 1, 2 and control points 0, 1, inverse y/(2-y). *)
Definition ex_V (y : pt) : Prop := 0 < y 1%Z < 1.
Definition ex_xi (y : pt) (c : Z) : R := y 1%Z / (2 - y 1%Z).
Definition ex_C (k a : Z) : R := if (a =? 1)%Z then 0 else 1.
Definition ex_f := rational_value 2 (Some W12) (tensor_value 1 2 1 (fun d i => lin d 0%Z i)).
Lemma ex_x k u : u 1%Z <> -1 -> rsum (fun a => ex_C k a * ex_f a u) (zseq 1 2) = 2 * u 1%Z / (1 + u 1%Z).
Proof.
  intros H. unfold ex_f, rational_value. replace (rsum (fun c => W12 c * _) (zseq 1 2)) with (1 + u 1%Z); [|cbv -[Rplus Rminus Rmult Rdiv Rinv Ropp IZR R]; ring].
  cbv -[Rplus Rminus Rmult Rdiv Rinv Ropp IZR R]. field. lra.
Qed.
Lemma ex_dx k u : -1 < u 1%Z -> diff_at 1 (fun u => rsum (fun a => ex_C k a * ex_f a u) (zseq 1 2)) u (fun _ => 2 / (1 + u 1%Z)^2).
Proof.
  intros H. eapply diff_ext_loc with (f := fun u => 2 * u 1%Z / (1 + u 1%Z)).
  - exists (1 + u 1%Z). split; [lra|]. intros y Hy. rewrite ex_x; auto. specialize (Hy 1%Z ltac:(lia)). apply Rabs_lt_between in Hy. lra.
  - apply (diff_fun1 (fun t => 2 * t / (1 + t)) (u 1%Z)); auto. auto_derive; [lra|field; lra].
Qed.
Example ex_tabulation :
  (forall y, ex_V y -> around 1 y ex_V) /\
  (forall y, ex_V y -> forall c, (1 <= c <= 1)%Z -> cont_at 1 (fun z => ex_xi z c) y) /\
  (forall y, ex_V y -> forall k, (1 <= k <= 1)%Z -> rsum (fun a => ex_C k a * ex_f a (ex_xi y)) (zseq 1 2) = y k) /\
  (forall y, ex_V y -> rsum (fun a => W12 a * tensor_value 1 2 1 (fun d i => lin d 0%Z i) a (ex_xi y)) (zseq 1 2) <> 0) /\
  (forall y, ex_V y -> forall J, (forall k, (1 <= k <= 1)%Z -> diff_at 1 (fun u => rsum (fun a => ex_C k a * ex_f a u) (zseq 1 2)) (ex_xi y) (fun q => J q k)) -> det 1 J <> 0).
Proof.
  assert (P : forall y, ex_V y -> 0 < ex_xi y 1%Z).
  { intros y [H1 H2]. unfold ex_xi. apply Rdiv_lt_0_compat; lra. }
  split; [|split; [|split; [|split]]].
  - intros y [H1 H2]. exists (Rmin (y 1%Z) (1 - y 1%Z)). split; [apply Rmin_pos; lra|]. intros z Hz. specialize (Hz 1%Z ltac:(lia)). unfold ex_V.
    pose proof (Rmin_l (y 1%Z) (1 - y 1%Z)). pose proof (Rmin_r (y 1%Z) (1 - y 1%Z)). apply Rabs_lt_between in Hz. lra.
  - intros y [H1 H2] c Hc. unfold ex_xi. eapply diff_cont. apply (diff_fun1 (fun t => t / (2 - t)) (y 1%Z)); auto. auto_derive; [lra|reflexivity].
  - intros y Hy k Hk. rewrite ex_x by (specialize (P y Hy); lra). replace k with 1%Z by lia. destruct Hy. unfold ex_xi. field. lra.
  - intros y Hy. replace (rsum _ _) with (1 + ex_xi y 1%Z); [specialize (P y Hy); lra|]. set (u := ex_xi y). cbv -[Rplus Rminus Rmult Rdiv Rinv Ropp IZR R u]. ring.
  - intros y Hy J HJ. specialize (P y Hy). pose proof (ex_dx 1 (ex_xi y) ltac:(lra)) as D. pose proof (diff_unique 1 _ _ _ _ 1 (HJ 1%Z ltac:(lia)) D ltac:(lia)) as E. cbv beta in E.
    replace (det 1 J) with (J 1%Z 1%Z); [|cbv -[Rplus Rminus Rmult Rdiv Rinv Ropp IZR R]; ring]. rewrite E. intros Z0.
    assert (0 < 2 / (1 + ex_xi y 1%Z) ^ 2) by (apply Rdiv_lt_0_compat; [lra|apply pow_lt; lra]). lra.
Qed.

(** C54: a face of a sheared cube. *)
Example ex_normal : det 3 (fun i j => if (i =? j)%Z then 2 else if (i =? 1)%Z then 1 else 0) <> 0.
Proof. replace (det 3 _) with 8; [lra|]. cbv -[Rplus Rminus Rmult Rdiv Rinv Ropp IZR R]. ring. Qed.
(** C71: a curve in space. *)
Example ex_curve : exists (M : pt -> nders) C, jet 1 1 2 M (fun _ => 1/2) /\
  det 1 (fun a b => rsum (fun i => form_grad 2 3 1 (fun _ => 1/2) (Some C) (n1 (M (fun _ => 1/2))) (fun _ _ => 0) a i * form_grad 2 3 1 (fun _ => 1/2) (Some C) (n1 (M (fun _ => 1/2))) (fun _ _ => 0) b i) (zseq 1 3)) <> 0.
Proof.
  exists linN, (fun i a => IZR (i * a)). split; [eapply jet_weak; [|apply ex_lin_jet]; lia|].
  replace (det 1 _) with (14/4); [lra|]. cbv -[Rplus Rminus Rmult Rdiv Rinv Ropp IZR R]. field.
Qed.
