(** Properties of the Fortran module PetIGA. *)
From Coq Require Import ZArith List Bool Lia Reals Lra.
From Verif Require Import Prelude GridSpec GridProofs MapModel ErrModel ErrProofs FtnModel FtnSpec FtnProofs.
Import ListNotations.
Open Scope Z_scope.

(** C117: the basis and shape functions, the geometry, weights and properties are those of C, the last index of
    C being the first of Fortran, counted from one; a missing array is null. *)
Theorem C117_access : forall p k idx a, valid (repeat (p_dim p) k) idx -> 1 <= a <= p_nen p ->
  valid (fa_shape (IGA_Basis k p)) (idx ++ [a]) /\ valid (fa_shape (IGA_Shape k p)) (idx ++ [a]) /\
  at_ (IGA_Basis k p) (idx ++ [a]) = p_basis p k (row (p_nen p :: repeat (p_dim p) k) (a - 1 :: c_order idx)) /\
  at_ (IGA_Shape k p) (idx ++ [a]) = p_shape p k (row (p_nen p :: repeat (p_dim p) k) (a - 1 :: c_order idx)).
Proof.
  intros p k idx a H Ha.
  assert (V : valid (repeat (p_dim p) k ++ [p_nen p]) (idx ++ [a])).
  { apply Forall2_app; [exact H|]. constructor; [exact Ha|constructor]. }
  assert (RR : forall A (x : A) n, rev (repeat x n) = repeat x n).
  { intros A x n. induction n as [|n IH]; [reflexivity|]. cbn [repeat rev]. rewrite IH. symmetry. apply repeat_cons. }
  assert (E : col (repeat (p_dim p) k ++ [p_nen p]) (idx ++ [a]) = row (p_nen p :: repeat (p_dim p) k) (a - 1 :: c_order idx)).
  { rewrite col_row by (apply valid_length; exact V). rewrite rev_app_distr, RR. unfold c_order. rewrite map_app, rev_app_distr. reflexivity. }
  repeat split; try exact V; unfold at_, IGA_Basis, IGA_Shape; cbn [fa_mem fa_shape]; f_equal; exact E.
Qed.

Theorem C117_geometry : forall p,
  match IGA_Rational p, p_rational p with
  | Some W, Some w => forall a, 1 <= a <= p_nen p -> valid (fa_shape W) [a] /\ at_ W [a] = w (a - 1)
  | None, None => True | _, _ => False end /\
  match IGA_Geometry p, p_geometry p with
  | Some X, Some x => forall a i, 1 <= a <= p_nen p -> 1 <= i <= p_nsd p ->
      valid (fa_shape X) [i; a] /\ at_ X [i; a] = x (row [p_nen p; p_nsd p] [a - 1; i - 1])
  | None, None => True | _, _ => False end /\
  match IGA_Property p, p_property p with
  | Some A, Some x => forall a i, 1 <= a <= p_nen p -> 1 <= i <= p_npd p ->
      valid (fa_shape A) [i; a] /\ at_ A [i; a] = x (row [p_nen p; p_npd p] [a - 1; i - 1])
  | None, None => True | _, _ => False end.
Proof.
  intros p. unfold IGA_Rational, IGA_Geometry, IGA_Property.
  destruct (p_rational p), (p_geometry p), (p_property p); cbn [option_map]; repeat split; auto; intros;
    try (repeat (constructor; try assumption)); unfold at_, row; cbn [fa_mem fa_shape col combine fold_left fst snd]; f_equal; lia.
Qed.

(** The geometry map, its gradient and the gradient of its inverse: C's X[nsd], F[nsd][dim], G[dim][nsd]. *)
Theorem C117_maps : forall p X F G i a, 1 <= i <= p_nsd p -> 1 <= a <= p_dim p ->
  at_ (IGA_GeomMap p X) [i] = X (i - 1) /\
  at_ (IGA_GradGeomMap p F) [a; i] = F (row [p_nsd p; p_dim p] [i - 1; a - 1]) /\
  at_ (IGA_InvGradGeomMap p G) [i; a] = G (row [p_dim p; p_nsd p] [a - 1; i - 1]).
Proof.
  intros. unfold at_, row. cbn [fa_mem fa_shape IGA_GeomMap IGA_GradGeomMap IGA_InvGradGeomMap col combine fold_left fst snd].
  repeat split; f_equal; lia.
Qed.

(** The derivatives of order k of a vector field at a point are those IGAPointFormValue ... IGAPointFormDer4 give in
    C for the same coefficients: V(idx,c) is C's V[c][...]. *)
Theorem C117_vector : forall p k U idx c, fa_shape U = [p_dof p; p_nen p] ->
  valid (repeat (p_dim p) k) idx -> 1 <= c <= p_dof p ->
  Point_Der_V k p U idx c =
  point_evaluate (p_nen p) (p_dof p) (p_dim p ^ Z.of_nat k) (p_shape p k) (fa_mem U)
                 (row (p_dof p :: repeat (p_dim p) k) (c - 1 :: c_order idx)).
Proof.
  intros p k U idx c HU H Hc. unfold Point_Der_V.
  assert (RR : forall A (x : A) n, rev (repeat x n) = repeat x n).
  { intros A x n. induction n as [|n IH]; [reflexivity|]. cbn [repeat rev]. rewrite IH. symmetry. apply repeat_cons. }
  assert (L : length (repeat (p_dim p) k) = length idx) by (apply valid_length; exact H).
  replace (row (p_dof p :: repeat (p_dim p) k) (c - 1 :: c_order idx))
    with ((c - 1) * p_dim p ^ Z.of_nat k + col (repeat (p_dim p) k) idx).
  2:{ replace (row (p_dof p :: repeat (p_dim p) k) (c - 1 :: c_order idx)) with (col (repeat (p_dim p) k ++ [p_dof p]) (idx ++ [c])).
      - rewrite col_app by exact L. rewrite prod_repeat. cbn [col]. ring.
      - rewrite col_row by (rewrite !app_length; cbn; lia). rewrite rev_app_distr, RR. unfold c_order. rewrite map_app, rev_app_distr. reflexivity. }
  assert (R0 := col_range _ _ H). rewrite prod_repeat in R0.
  rewrite point_evaluate_spec by (try exact R0; lia).
  rewrite Der_V_sum by (unfold size_; rewrite HU; cbn; lia).
  unfold size_ at 1. rewrite HU. cbn [nth Nat.sub]. rewrite rsum_shift. apply rsum_ext. intros a _.
  rewrite at_shape by exact H. unfold at_. rewrite HU. cbn [col]. f_equal; f_equal; ring.
Qed.

(** Those of a scalar field are those of a field with one component. *)
Theorem C117_scalar : forall p k U idx, fa_shape U = [p_nen p] -> valid (repeat (p_dim p) k) idx ->
  Point_Der_S k p U idx =
  point_evaluate (p_nen p) 1 (p_dim p ^ Z.of_nat k) (p_shape p k) (fa_mem U) (row (repeat (p_dim p) k) (c_order idx)).
Proof.
  intros p k U idx HU H. unfold Point_Der_S.
  assert (RR : forall A (x : A) n, rev (repeat x n) = repeat x n).
  { intros A x n. induction n as [|n IH]; [reflexivity|]. cbn [repeat rev]. rewrite IH. symmetry. apply repeat_cons. }
  rewrite <- (RR Z (p_dim p) k). rewrite <- col_row by (apply valid_length; exact H).
  assert (R0 := col_range _ _ H). rewrite prod_repeat in R0.
  replace (col (repeat (p_dim p) k) idx) with (0 * p_dim p ^ Z.of_nat k + col (repeat (p_dim p) k) idx) at 1 by ring.
  rewrite point_evaluate_spec by (try exact R0; lia).
  rewrite Der_S_sum. unfold size_. rewrite HU. cbn [nth Nat.sub]. rewrite rsum_shift. apply rsum_ext. intros a _.
  rewrite at_shape by exact H. unfold at_. rewrite HU. cbn [col]. f_equal; f_equal; ring.
Qed.

Lemma valid1 : forall d i, 1 <= i <= d -> valid [d] [i]. Proof. intros. repeat constructor; lia. Qed.
Lemma valid2 : forall d i, 1 <= i <= d -> valid [d; d] [i; i]. Proof. intros. repeat constructor; lia. Qed.

(** The divergence is the trace of the gradient; IGA_Div of a point stores it in each of dim elements. *)
Theorem C117_div : forall p U i, fa_shape U = [p_dim p; p_nen p] -> 1 <= i <= p_dim p ->
  Point_Div p U i = rsum (fun j => Point_Der_V 1 p U [j] j) (zseq 1 (p_dim p)).
Proof.
  intros p U i HU Hi. unfold Point_Div. rewrite Div_sum. change (size_ (IGA_Shape 1 p) 1) with (p_dim p).
  unfold size_. rewrite HU. cbn [nth Nat.sub]. rewrite rsum_comm. apply rsum_ext. intros j Hj. apply in_zseq in Hj.
  unfold Point_Der_V. rewrite Der_V_sum by (unfold size_; rewrite HU; cbn; lia). unfold size_. rewrite HU. reflexivity.
Qed.

(** The Laplacian is the trace of the Hessian, and what IGA_GetDel2 computes in C. *)
Theorem C117_del2 : forall p U, 1 <= p_dim p ->
  (fa_shape U = [p_nen p] ->
   Point_Del2_S p U = rsum (fun j => Point_Der_S 2 p U [j; j]) (zseq 1 (p_dim p))) /\
  (fa_shape U = [p_dof p; p_nen p] -> forall c, 1 <= c <= p_dof p ->
   Point_Del2_V p U c = rsum (fun j => Point_Der_V 2 p U [j; j] c) (zseq 1 (p_dim p)) /\
   Point_Del2_V p U c = eval_del2 (p_nen p) (p_dim p)
     (fun i j a => p_shape p 2 (row [p_nen p; p_dim p; p_dim p] [a - 1; j - 1; i - 1]))
     (fun a => fa_mem U (row [p_nen p; p_dof p] [a - 1; c - 1]))).
Proof.
  intros p U Hd. split.
  - intros HU. unfold Point_Del2_S. rewrite Del2_S_sum. change (size_ (IGA_Shape 2 p) 1) with (p_dim p).
    rewrite rsum_comm. apply rsum_ext. intros j _. unfold Point_Der_S. rewrite Der_S_sum. reflexivity.
  - intros HU c Hc. assert (S1 : size_ U 1 = p_dof p) by (unfold size_; rewrite HU; reflexivity).
    assert (S2 : size_ U 2 = p_nen p) by (unfold size_; rewrite HU; reflexivity).
    unfold Point_Del2_V. rewrite Del2_V_sum by lia. change (size_ (IGA_Shape 2 p) 1) with (p_dim p). split.
    + rewrite rsum_comm. apply rsum_ext. intros j _. unfold Point_Der_V. rewrite Der_V_sum by lia. reflexivity.
    + rewrite S2. unfold eval_del2, MapModel.loop.
      assert (A : forall (f : Z -> Z -> R) l l' s, fold_left (fun s a => fold_left (fun s i => s + f i a)%R l' s) l s =
                  (s + rsum (fun a => rsum (fun i => f i a) l') l)%R).
      { intros f l l'. induction l as [|a l IH]; intros s; cbn [fold_left]; [unfold rsum; cbn; ring|].
        rewrite IH, rsum_cons. rewrite (fold_sum (fun i => f i a)). ring. }
      match goal with |- _ = ?t => let t' := eval cbv beta in t in change t with t' end.
      etransitivity; [|symmetry; apply (A (fun i a => (p_shape p 2 (row [p_nen p; p_dim p; p_dim p] [a - 1; i - 1; i - 1])%Z *
         fa_mem U (row [p_nen p; p_dof p] [a - 1; c - 1])%Z)%R))].
      rewrite Rplus_0_l. apply rsum_ext. intros a _. apply rsum_ext. intros i _.
      unfold at_, row. rewrite HU. cbn [fa_mem fa_shape IGA_Shape repeat app col combine fold_left fst snd]. f_equal; f_equal; ring.
Qed.

(** The face: axis and side as IGAPointAtBoundary gives them in C, -1 inside. *)
Theorem C117_face : forall p,
  (p_atboundary p = 0 -> IGA_AtBoundary p = (false, -1, -1)) /\
  (p_atboundary p <> 0 -> forall axis side, 0 <= axis -> side = 0 \/ side = 1 ->
   p_boundary_id p = 2 * axis + side -> IGA_AtBoundary p = (true, axis, side)).
Proof.
  intros p. unfold IGA_AtBoundary. split.
  - intros ->. reflexivity.
  - intros H axis side Ha Hs ->. destruct (Z.eqb_spec (p_atboundary p) 0) as [E|_]; [contradiction|]. cbn [negb].
    rewrite Z.quot_div_nonneg, Z.rem_mod_nonneg by lia. f_equal; [f_equal|].
    + symmetry. apply (Z.div_unique _ 2 axis side); lia.
    + symmetry. apply (Z.mod_unique _ 2 axis side); lia.
Qed.

(** The normal: IGA_Normal shows dim of the nsd entries; with dim = nsd these are all, otherwise the others are
    zero. *)
Theorem C117_normal : forall p sqrt axis side X1,
  0 <= axis < p_dim p -> p_dim p <= p_nsd p -> (p_dim p < p_nsd p -> X1 = None) ->
  (forall j, 1 <= j <= p_nsd p -> p_normal p (j - 1) = snd (boundary_normal sqrt (p_dim p) axis side X1) j) ->
  (forall j, 1 <= j <= p_dim p ->
     valid (fa_shape (IGA_Normal p)) [j] /\ at_ (IGA_Normal p) [j] = snd (boundary_normal sqrt (p_dim p) axis side X1) j) /\
  (forall j, p_dim p < j <= p_nsd p -> p_normal p (j - 1) = 0%R).
Proof.
  intros p sqrt axis side X1 Ha Hd HX HN. split.
  - intros j Hj. split; [apply valid1; exact Hj|]. unfold at_. cbn [fa_mem fa_shape IGA_Normal col].
    rewrite <- HN by lia. f_equal. lia.
  - intros j Hj. rewrite HN by lia. rewrite HX by lia. cbn [boundary_normal snd].
    destruct (Z.eqb_spec j (axis + 1)) as [E|_]; [lia|reflexivity].
Qed.

(** A point of a surface patch with two nodes and two components. *)
Definition ftn_ex : point := mk_point 2 2 2 2 0 1 3 None (Some IZR) None (fun _ => 0%R) (fun _ => IZR) (fun _ => IZR).
Definition ftn_u : farr R := mk_farr IZR [2; 2].
Example C117_example :
  IGA_AtBoundary ftn_ex = (true, 1, 1) /\ Point_Der_V 1 ftn_ex ftn_u [2] 1 = 6%R /\ Point_Div ftn_ex ftn_u 1 = 14%R /\
  at_ (IGA_Shape 2 ftn_ex) [1; 2; 2] = 6%R.
Proof.
  repeat split.
  - unfold Point_Der_V. rewrite Der_V_sum by (unfold size_, ftn_u; cbn; lia).
    change (rsum (fun a => Rmult (at_ (IGA_Shape 1 ftn_ex) ([2] ++ [a])) (at_ ftn_u [1; a])) [1; 2] = 6%R). unfold rsum.
    change (1 * 0 + (3 * 2 + 0) = 6)%R. ring.
  - unfold Point_Div. rewrite Div_sum.
    change (rsum (fun a => rsum (fun i => Rmult (at_ (IGA_Shape 1 ftn_ex) [i; a]) (at_ ftn_u [i; a])) [1; 2]) [1; 2] = 14%R).
    unfold rsum. change ((0 * 0 + (1 * 1 + 0)) + ((2 * 2 + (3 * 3 + 0)) + 0) = 14)%R. ring.
Qed.

(** C118: with real scalars IGA_Property shows the properties (C117_geometry).  With complex scalars it shows
    other numbers than their real parts. *)
Theorem C118_complex_refuted : exists (p : point) (x : Z -> R * R) A a i,
  p_property p = Some (real_words x) /\ IGA_Property p = Some A /\ 1 <= a <= p_nen p /\ 1 <= i <= p_npd p /\
  at_ A [i; a] <> fst (x (row [p_nen p; p_npd p] [a - 1; i - 1])).
Proof.
  exists (mk_point 2 1 1 1 1 0 0 None None (Some (real_words (fun k => (IZR k, 7%R)))) (fun _ => 0%R) (fun _ _ => 0%R) (fun _ _ => 0%R)).
  exists (fun k => (IZR k, 7%R)). eexists. exists 2, 1. split; [reflexivity|]. split; [reflexivity|]. repeat split; cbn; try lia.
  change (7%R <> 1%R). lra.
Qed.

(** What it does show: the entry of half the offset, its imaginary part when the offset is odd; only the very first
    property is right. *)
Theorem C118_complex : forall p x A a i, p_property p = Some (real_words x) -> IGA_Property p = Some A ->
  1 <= a <= p_nen p -> 1 <= i <= p_npd p ->
  let w := row [p_nen p; p_npd p] [a - 1; i - 1] in
  at_ A [i; a] = (if Z.even w then fst (x (w / 2)) else snd (x (w / 2))) /\ (w / 2 = w <-> a = 1 /\ i = 1).
Proof.
  intros p x A a i HP HA Ha Hi w. unfold IGA_Property in HA. rewrite HP in HA. cbn [option_map] in HA. injection HA as <-.
  assert (W : (i - 1) + p_npd p * (a - 1) = w).
  { unfold w, row. cbn [combine fold_left fst snd]. ring. }
  split.
  - unfold at_. cbn [fa_mem fa_shape col]. replace (i - 1 + p_npd p * (a - 1 + p_nen p * 0)) with w by (rewrite <- W; ring).
    unfold real_words. rewrite Zmod_even. destruct (Z.even w); reflexivity.
  - assert (0 <= p_npd p * (a - 1)) by (apply Z.mul_nonneg_nonneg; lia). split.
    + intros E. assert (w = 0) by (assert (D := Z.div_mod w 2 ltac:(lia)); assert (M := Z.mod_pos_bound w 2 ltac:(lia)); lia).
      assert (i = 1) by lia. assert (P : p_npd p * (a - 1) = 0) by lia. apply Z.mul_eq_0 in P. lia.
    + intros [-> ->]. rewrite <- W. replace (1 - 1 + p_npd p * (1 - 1)) with 0 by ring. reflexivity.
Qed.

Print Assumptions C117_access.
Print Assumptions C117_geometry.
Print Assumptions C117_maps.
Print Assumptions C117_vector.
Print Assumptions C117_scalar.
Print Assumptions C117_div.
Print Assumptions C117_del2.
Print Assumptions C117_face.
Print Assumptions C117_normal.
Print Assumptions C118_complex.
Print Assumptions C118_complex_refuted.
