(** C30, C31, C64, C65: B-spline basis functions, their derivatives, and the tables of values. *)
From Coq Require Import ZArith List Bool Lia Reals Lra Psatz.
From Coq Require Import ZifyBool ZifyNat.
From Coquelicot Require Import Coquelicot.
From Verif Require Import Prelude RealOrd AxisModel AxisSpec AxisInitModel AxisInitProofs ElemModel Box GridSpec GridProofs
  RuleModel RuleSpec RuleProofs RuleProofs2 RuleProps BasModel BasSpec BasProofs BasProofs2 BasProofs3.
Import ListNotations.
Open Scope R_scope.

Lemma nondec_R m (U : Z -> R) : nondecreasing (O:=Rord) m U -> forall a b, (0 <= a)%Z -> (a <= b)%Z -> (b <= m)%Z -> U a <= U b.
Proof. intros H a b Ha Hab Hb. apply kle_R. apply H; auto. Qed.

(** ** C30: values *)
Theorem C30_values_are_bsplines :
  forall p m (U : Z -> R) i u d ndu0 a0 ders0 l0 r0,
  nondecreasing (O:=Rord) m U -> (0 <= p)%Z -> (p <= i <= m-p-1)%Z -> U i < U (i+1)%Z -> (0 <= d <= p)%Z ->
  let B := basis_bspline i u p d U ndu0 a0 ders0 l0 r0 in
  (U i <= u < U (i+1)%Z ->
     (forall a, (0 <= a <= p)%Z -> B 0%Z a = bspline U (Z.to_nat p) (i-p+a) u) /\
     (forall c, (0 <= c < m-p)%Z -> (c < i-p \/ i < c)%Z -> bspline U (Z.to_nat p) c u = 0)) /\
  (u = U (i+1)%Z -> forall a, (0 <= a <= p)%Z -> filterlim (bspline U (Z.to_nat p) (i-p+a)) (at_left u) (locally (B 0%Z a))) /\
  (U i <= u <= U (i+1)%Z -> forall a, (0 <= a <= p)%Z -> 0 <= B 0%Z a <= 1) /\
  rsum (fun a => B 0%Z a) (zseq 0 (p+1)) = 1.
Proof.
  intros p m U i u d ndu0 a0 ders0 l0 r0 HN Hp Hi HU Hd B. pose proof (nondec_R m U HN) as HN'; clear HN; rename HN' into HN.
  assert (Hs : forall a b, (i - p + 1 <= a)%Z -> (a <= b)%Z -> (b <= i + p)%Z -> U a <= U b) by (intros; apply HN; lia).
  assert (V : forall a, (0 <= a <= p)%Z -> B 0%Z a = bspline_piece U i (Z.to_nat p) (i-p+a) u) by (intros; apply basis_value; auto).
  assert (S1 : rsum (fun a => B 0%Z a) (zseq 0 (p+1)) = 1).
  { rewrite <- (piece_unity U i p Hs HU Hp (Z.to_nat p) ltac:(lia) u).
    rewrite Z2Nat.id by lia. replace (i-p)%Z with (0 + (i-p))%Z by lia. rewrite <- zseq_shift, rsum_map. apply rsum_ext.
    intros a Ha. apply in_zseq in Ha. rewrite V by lia. f_equal. lia. }
  split; [|split; [|split]]; auto.
  - intros Hu. split.
    + intros a Ha. rewrite V by lia. symmetry. apply (bspline_is_piece U m); auto; lia.
    + intros c Hc Hout. rewrite (bspline_is_piece U m i) by (auto; lia). apply piece_zero. lia.
  - intros Hu a Ha. rewrite V by lia.
    apply (filterlim_ext_loc (bspline_piece U i (Z.to_nat p) (i-p+a))).
    + exists (mkposreal (U (i+1)%Z - U i) ltac:(lra)). intros v Hv Hlt. symmetry. apply (bspline_is_piece U m); auto; try lia.
      unfold ball in Hv; simpl in Hv; unfold AbsRing_ball, abs, minus, plus, opp in Hv; simpl in Hv. apply Rabs_def2 in Hv. lra.
    + unfold at_left. eapply filterlim_filter_le_1; [apply filter_le_within|].
      assert (C : continuous (bspline_piece U i (Z.to_nat p) (i-p+a)) u); [|exact C].
      apply (ex_derive_continuous (bspline_piece U i (Z.to_nat p) (i-p+a))).
      destruct (Z.eq_dec p 0) as [->|N]; [exists 0; exact (piece_derive_n_zero U i 0 Hs HU Hp _ 1 u ltac:(simpl; lia))|].
      eexists. exact (piece_derive_n U i p Hs HU Hp _ 1 u ltac:(lia)).
  - intros Hu a Ha.
    assert (P : forall b, (0 <= b <= p)%Z -> 0 <= B 0%Z b).
    { intros b Hb. rewrite V by lia. apply (piece_nonneg U i p Hs HU Hp); auto; lia. }
    split; [apply P; auto|]. rewrite <- S1.
    assert (E : zseq 0 (p+1) = zseq 0 a ++ [a] ++ zseq (a+1) (p-a)).
    { replace (p+1)%Z with (a + (1 + (p-a)))%Z by lia. rewrite zseq_app by lia. rewrite Z.add_0_l. f_equal. rewrite zseq_cons by lia. replace (1 + (p - a) - 1)%Z with (p-a)%Z by lia. reflexivity. }
    rewrite E, !rsum_app. replace (rsum (fun a => B 0%Z a) [a]) with (B 0%Z a) by (unfold rsum; simpl; ring).
    assert (Q : forall s n, (0 <= s)%Z -> (0 <= n)%Z -> (s+n <= p+1)%Z -> 0 <= rsum (fun a => B 0%Z a) (zseq s n)).
    { intros s n Hs' Hn Hsn. assert (G : forall l, (forall x, In x l -> 0 <= B 0%Z x) -> 0 <= rsum (fun a => B 0%Z a) l).
      { induction l as [|x l IH]; intros G; [unfold rsum; simpl; lra|]. rewrite rsum_cons. pose proof (G x (or_introl eq_refl)).
        pose proof (IH (fun y Hy => G y (or_intror Hy))). lra. }
      apply G. intros x Hx. apply in_zseq in Hx. apply P. lia. }
    pose proof (Q 0%Z a ltac:(lia) ltac:(lia) ltac:(lia)). pose proof (Q (a+1)%Z (p-a)%Z ltac:(lia) ltac:(lia) ltac:(lia)). lra.
Qed.
Print Assumptions C30_values_are_bsplines.

(** ** C31: derivatives.  Row k of the table, k = 0..4, holds the derivatives of order k: of the
    polynomial over the knot span, hence of the B-spline functions inside the span; they add up to zero. *)
Theorem C31_derivatives :
  forall p m (U : Z -> R) i u ndu0 a0 ders0 l0 r0,
  nondecreasing (O:=Rord) m U -> (0 <= p)%Z -> (p <= i <= m-p-1)%Z -> U i < U (i+1)%Z ->
  let B := basis_bspline i u p (Z.min p 4) U ndu0 a0 ders0 l0 r0 in
  forall k, (0 <= k <= 4)%Z ->
  (forall a, (0 <= a <= p)%Z -> is_derive_n (bspline_piece U i (Z.to_nat p) (i-p+a)) (Z.to_nat k) u (B k a)) /\
  (forall a, (0 <= a <= p)%Z -> U i < u < U (i+1)%Z -> is_derive_n (bspline U (Z.to_nat p) (i-p+a)) (Z.to_nat k) u (B k a)) /\
  ((1 <= k)%Z -> rsum (fun a => B k a) (zseq 0 (p+1)) = 0).
Proof.
  intros p m U i u ndu0 a0 ders0 l0 r0 HN Hp Hi HU B k Hk. pose proof (nondec_R m U HN) as HN'.
  assert (Hs : forall a b, (i - p + 1 <= a)%Z -> (a <= b)%Z -> (b <= i + p)%Z -> U a <= U b) by (intros; apply HN'; lia).
  assert (V : forall a, (0 <= a <= p)%Z -> is_derive_n (bspline_piece U i (Z.to_nat p) (i-p+a)) (Z.to_nat k) u (B k a)).
  { intros a Ha. apply basis_derive; auto. }
  split; [exact V|split].
  - intros a Ha Hu. apply (is_derive_n_ext_loc (bspline_piece U i (Z.to_nat p) (i-p+a))); [|apply V; auto].
    assert (D : 0 < Rmin (u - U i) (U (i+1)%Z - u)) by (apply Rmin_pos; lra).
    exists (mkposreal _ D). intros v Hv. symmetry. apply (bspline_is_piece U m); auto; try lia.
    unfold ball in Hv; simpl in Hv; unfold AbsRing_ball, abs, minus, plus, opp in Hv; simpl in Hv. apply Rabs_def2 in Hv.
    pose proof (Rmin_l (u - U i) (U (i+1)%Z - u)). pose proof (Rmin_r (u - U i) (U (i+1)%Z - u)). lra.
  - intros Hk1.
    unfold B, basis_bspline. destruct ((0 <=? k)%Z && (k <=? Z.min p 4)%Z) eqn:E; [|apply rsum_zero; auto].
    rewrite <- (sum_derivs U i p Hs HU Hp (Z.to_nat k) ltac:(lia) u). apply rsum_ext. intros a Ha. apply in_zseq in Ha.
    apply ders_value; auto; lia.
Qed.
Print Assumptions C31_derivatives.

(** ** C64: the values stored for the quadrature points *)
Lemma reached_prefix W n iqp : List.Forall (fun w => 0 < w) W -> nth iqp (W ++ zeros n) 0 <> 0 -> reached (W ++ zeros n) iqp = true.
Proof.
  intros HW H. assert (L : (iqp < length W)%nat).
  { destruct (Nat.lt_ge_cases iqp (length W)) as [?|G]; auto. exfalso. apply H. rewrite app_nth2 by auto.
    unfold zeros. generalize (iqp - length W)%nat, (zseq 0 n). intros k l. revert k. induction l as [|x l IH]; intros [|k]; simpl; auto. }
  unfold reached. rewrite app_length. replace (iqp <? length W + length (zeros n))%nat with true by (symmetry; apply Nat.ltb_lt; lia).
  cbn [andb]. apply forallb_forall. intros x Hx. apply Rltb_true.
  rewrite firstn_app in Hx. replace (S iqp - length W)%nat with 0%nat in Hx by lia. rewrite app_nil_r in Hx.
  rewrite Forall_forall in HW. apply HW. rewrite <- (firstn_skipn (S iqp) W). apply in_or_app. auto.
Qed.

Lemma std_positive lit r : rounds lit -> usable lit r -> (ru_type r = RUser -> forall W, ru_weight r = Some W -> List.Forall (fun w => 0 < w) W) ->
  List.Forall (fun w => 0 < w) (pts (ru_weight r)).
Proof.
  intros HL [(_ & _ & E)|(N & X & W & E1 & E2 & L1 & L2 & T)] HU; [rewrite E; constructor|].
  rewrite E2. simpl. destruct (ru_type r) eqn:ET.
  - destruct (Z_le_dec (ru_nqp r) 10); [|rewrite legendre_none in T by lia; discriminate].
    destruct (legendre_good lit (ru_nqp r) HL ltac:(lia)) as (X' & W' & G & _ & _ & _ & P & _). rewrite T in G. injection G as <- <-. auto.
  - destruct (Z_lt_dec (ru_nqp r) 2); [rewrite lobatto_none in T by lia; discriminate|].
    destruct (Z_le_dec (ru_nqp r) 10); [|rewrite lobatto_none in T by lia; discriminate].
    destruct (lobatto_good lit (ru_nqp r) HL ltac:(lia)) as (X' & W' & G & _ & _ & _ & P & _). rewrite T in G. injection G as <- <-. auto.
  - destruct (Z_le_dec (ru_nqp r) 10); [|rewrite legendre_none in T by lia; discriminate].
    destruct (legendre_good lit (ru_nqp r) HL ltac:(lia)) as (X' & W' & G & _ & _ & _ & P & _). rewrite T in G. injection G as <- <-. auto.
  - apply HU; auto.
Qed.

(** For the predefined rules, and for user rules with positive weights: at every point that contributes to
    a quadrature sum the stored values are those of the basis functions of the element, and the offset and
    the number of functions stored for the element are right. *)
Theorem C64_values_at_quadrature_points :
  forall lit maxreal p m (U : Z -> R) spans r r' B,
  rounds lit -> usable lit r -> (1 <= ru_nqp r)%Z ->
  (ru_type r = RUser -> forall W, ru_weight r = Some W -> List.Forall (fun w => 0 < w) W) ->
  nondecreasing (O:=Rord) m U -> (0 <= p)%Z -> is_element_list (O:=Rord) p m U spans ->
  init_quadrature lit maxreal true p m U spans r = (Ok, r', Some B) ->
  forall e iqp value0 ndu0 a0 ders0 l0 r0, (0 <= e < bq_nel B)%Z -> nth iqp (bq_weight B e) 0 <> 0 ->
  let k := nth (Z.to_nat e) spans 0%Z in
  let N := elem_values k p U (bq_weight B e) (bq_point B e) value0 ndu0 a0 ders0 l0 r0 iqp in
  let u := nth iqp (bq_point B e) 0 in
  bq_offset B e = (k - p)%Z /\ bq_nen B = (p + 1)%Z /\
  forall a, (0 <= a < bq_nen B)%Z ->
    (U k <= u < U (k+1)%Z -> N 0%Z a = bspline U (Z.to_nat p) (bq_offset B e + a) u) /\
    (forall o, (0 <= o <= 4)%Z -> is_derive_n (bspline_piece U k (Z.to_nat p) (bq_offset B e + a)) (Z.to_nat o) u (N o a)).
Proof.
  intros lit maxreal p m U spans r r' B HL Hu HN HUser HM Hp [HE _] HQ e iqp value0 ndu0 a0 ders0 l0 r0 He Hw.
  assert (S : reached (bq_weight B e) iqp = true /\ bq_offset B e = (nth (Z.to_nat e) spans 0 - p)%Z /\ bq_nen B = (p+1)%Z /\ bq_nel B = Z.of_nat (length spans)).
  { unfold init_quadrature in HQ. replace (ru_nqp r <? 1)%Z with false in HQ by lia. cbn [negb andb] in HQ.
    destruct (negb (rtype_eqb (ru_type r) RReduced)) eqn:ET.
    - injection HQ as <- <-. cbn [bq_weight bq_offset bq_nen bq_nel] in *. split; auto.
      replace (pts (ru_weight r)) with (pts (ru_weight r) ++ zeros 0) in * by apply app_nil_r. apply reached_prefix; auto.
      apply std_positive with lit; auto.
    - set (cond := (2 <? Z.of_nat (length spans))%Z && (1 <? ru_nqp r)%Z) in *.
      destruct (if cond then rule_set_size lit (ru_nqp r - 1) r else (Ok, r)) as [s2 r2] eqn:E2.
      destruct s2; try discriminate. injection HQ as <- <-. cbn [bq_weight bq_offset bq_nen bq_nel] in *. split; auto.
      assert (TR : ru_type r = RReduced) by (destruct (ru_type r); auto; discriminate).
      assert (U2 : usable lit r2 /\ ru_type r2 = RReduced).
      { destruct cond; [apply set_size_usable in E2; auto; destruct E2 as (A1 & _ & A2); rewrite A2; auto|injection E2 as <-; auto]. }
      destruct U2 as [U2 T2]. unfold elem_weights in *.
      destruct ((e =? 0)%Z || (e =? Z.of_nat (length spans) - 1)%Z); apply reached_prefix; auto; apply std_positive with lit; auto; rewrite T2; discriminate. }
  destruct S as (S1 & S2 & S3 & S4). intros k N u. rewrite S2, S3. fold k. split; auto. split; auto. intros a Ha.
  assert (HK : is_element (O:=Rord) p m U k) by (apply HE; apply nth_In; lia). destruct HK as [HK1 HK2]. apply (proj1 (klt_R _ _)) in HK2.
  unfold N, elem_values. rewrite S1. fold u. split.
  - intros Hu'. destruct (C30_values_are_bsplines p m U k u (Z.min p 4) ndu0 a0 ders0 l0 r0 HM Hp HK1 HK2 ltac:(lia)) as [C _].
    apply (proj1 (C Hu')). lia.
  - intros o Ho. apply (C31_derivatives p m U k u ndu0 a0 ders0 l0 r0 HM Hp HK1 HK2 o Ho). lia.
Qed.
Print Assumptions C64_values_at_quadrature_points.

Lemma ex_knots_valid : valid_knots (O:=Rord) 2 7 ex_knots.
Proof.
  split; [lia|]. split; [lia|]. split.
  - intros i j Hi Hij Hj. apply kle_R.
    assert (S : forall a, (0 <= a < 7)%Z -> ex_knots a <= ex_knots (a+1)%Z).
    { intros a Ha. assert (C : (a = 0 \/ a = 1 \/ a = 2 \/ a = 3 \/ a = 4 \/ a = 5 \/ a = 6)%Z) by lia.
      unfold ex_knots. repeat (destruct C as [-> | C]; [simpl; lra|]). subst a; simpl; lra. }
    replace j with (i + Z.of_nat (Z.to_nat (j-i)))%Z by lia.
    assert (G : (i + Z.of_nat (Z.to_nat (j-i)) <= 7)%Z) by lia. revert G.
    induction (Z.to_nat (j-i)) as [|n IH]; intros G; [replace (i + Z.of_nat 0)%Z with i by lia; lra|].
    pose proof (IH ltac:(lia)). pose proof (S (i + Z.of_nat n)%Z ltac:(lia)).
    replace (i + Z.of_nat (Datatypes.S n))%Z with (i + Z.of_nat n + 1)%Z by lia. lra.
  - intros v. unfold count_eq. change (zseq 1 (7 - 1 - 1 + 1)) with [1; 2; 3; 4; 5; 6]%Z. cbn [filter].
    change (ex_knots 1%Z) with 0. change (ex_knots 2%Z) with 0. change (ex_knots 3%Z) with 1.
    change (ex_knots 4%Z) with 4. change (ex_knots 5%Z) with 5. change (ex_knots 6%Z) with 5.
    assert (E : forall x y : R, x <> y -> keqb (O:=Rord) x v = true -> keqb (O:=Rord) y v = false).
    { intros x y Hxy Hx. destruct (keqb (O:=Rord) y v) eqn:Hy; auto. exfalso. apply keqb_spec, keq_R in Hx. apply keqb_spec, keq_R in Hy.
      apply Hxy. congruence. }
    destruct (keqb (O:=Rord) 0 v) eqn:E0; [rewrite (E 0 1), (E 0 4), (E 0 5) by (auto; lra); simpl; lia|].
    destruct (keqb (O:=Rord) 1 v) eqn:E1; [rewrite (E 1 4), (E 1 5) by (auto; lra); simpl; lia|].
    destruct (keqb (O:=Rord) 4 v) eqn:E4; [rewrite (E 4 5) by (auto; lra); simpl; lia|].
    destruct (keqb (O:=Rord) 5 v); simpl; lia.
Qed.

(** A rule supplied by the user with a negative weight (three-point open Newton-Cotes, exact for cubics) is
    accepted, but the basis values of its second and third point are whatever the memory contained. *)
Theorem C64_user_rule_values_refuted :
  exists X W, integrates 4 0 (-1) 1 X W /\
  exists (p m : Z) (U : Z -> R) spans, valid_knots (O:=Rord) p m U /\ is_element_list (O:=Rord) p m U spans /\
  forall lit maxreal, let r := snd (rule_run lit [OpSetRule 3 X W] rule_create) in
  fst (rule_run lit [OpSetRule 3 X W] rule_create) = [Ok] /\
  exists B, init_quadrature lit maxreal true p m U spans r = (Ok, r, Some B) /\
  forall e, (0 <= e < bq_nel B)%Z -> forall iqp, (1 <= iqp < 3)%nat -> nth iqp (bq_weight B e) 0 <> 0 /\
  forall value0 ndu0 a0 ders0 l0 r0,
    elem_values (nth (Z.to_nat e) spans 0%Z) p U (bq_weight B e) (bq_point B e) value0 ndu0 a0 ders0 l0 r0 iqp = value0 iqp.
Proof.
  exists [-1/2; 0; 1/2], [4/3; -2/3; 4/3]. split.
  { assert (I : forall a b c d e, (forall x, peval e x = a + x * (b + x * (c + x * d))) -> is_RInt (peval e) (-1) 1 (2 * a + 2 * c / 3)).
    { intros a b c d e He.
      set (F := fun x => a * x + b * x^2 / 2 + c * x^3 / 3 + d * x^4 / 4).
      replace (2 * a + 2 * c / 3) with (minus (F 1) (F (-1))) by (unfold F, minus, plus, opp; simpl; field).
      apply (is_RInt_derive F (peval e)).
      - intros x _. rewrite He. unfold F. auto_derive; auto. field.
      - intros x _. apply (continuous_ext (fun x => a + x * (b + x * (c + x * d)))); [intros; symmetry; apply He|].
        apply (ex_derive_continuous (fun x => a + x * (b + x * (c + x * d)))). auto_derive. auto. }
    intros e He. assert (D : exists a b c d, forall x, peval e x = a + x * (b + x * (c + x * d))).
    { destruct e as [|a [|b [|c [|d [|z e]]]]]; simpl in He; try lia;
      [exists 0, 0, 0, 0|exists a, 0, 0, 0|exists a, b, 0, 0|exists a, b, c, 0|exists a, b, c, d]; intros; simpl; ring. }
    destruct D as (a & b & c & d & D). rewrite (is_RInt_unique _ _ _ _ (I a b c d e D)). simpl quad. rewrite !D.
    match goal with |- Rabs ?t <= _ => replace t with 0 by field end. rewrite Rabs_R0. lra. }
  exists 2%Z, 7%Z, ex_knots, [2; 3; 4]%Z. split; [exact ex_knots_valid|]. split; [exact ex_knots_elements|].
  intros lit maxreal. split; [reflexivity|]. eexists. split; [reflexivity|].
  intros e He iqp Hq. cbn [bq_weight].
  assert (C : iqp = 1%nat \/ iqp = 2%nat) by lia. destruct C as [-> | ->]; simpl.
  - split; [lra|]. intros. unfold elem_values, reached. simpl. unfold Rltb. destruct (Rlt_dec 0 (-2/3)); [lra|]. rewrite !andb_false_r. reflexivity.
  - split; [lra|]. intros. unfold elem_values, reached. simpl. unfold Rltb. destruct (Rlt_dec 0 (-2/3)); [lra|]. rewrite ?andb_false_r, ?andb_false_l. simpl. destruct (Rlt_dec 0 (4/3)); reflexivity.
Qed.
Print Assumptions C64_user_rule_values_refuted.

(** ** C65: the values stored for the two ends of the domain *)
Theorem C65_boundary_values :
  forall p m (U : Z -> R) ndu0 a0 ders0 l0 r0,
  nondecreasing (O:=Rord) m U -> (0 <= p)%Z -> (2*p+1 <= m)%Z -> ends_nonempty (O:=Rord) p m U ->
  let B := fun side => bnd_values side p m U ndu0 a0 ders0 l0 r0 in
  (forall a, (0 <= a <= p)%Z ->
     B false 0%Z a = bspline U (Z.to_nat p) a (U p) /\
     filterlim (bspline U (Z.to_nat p) (m-2*p-1+a)) (at_left (U (m-p)%Z)) (locally (B true 0%Z a)) /\
     forall k, (0 <= k <= 4)%Z ->
       is_derive_n (bspline_piece U p (Z.to_nat p) a) (Z.to_nat k) (U p) (B false k a) /\
       is_derive_n (bspline_piece U (m-p-1) (Z.to_nat p) (m-2*p-1+a)) (Z.to_nat k) (U (m-p)%Z) (B true k a)) /\
  (* open knot vectors: the first and the last function alone do not vanish at the ends *)
  (U 1%Z = U p -> forall a, (1 <= a <= p)%Z -> B false 0%Z a = 0) /\
  (U (m-p)%Z = U (m-1)%Z -> forall a, (0 <= a < p)%Z -> B true 0%Z a = 0).
Proof.
  intros p m U ndu0 a0 ders0 l0 r0 HM Hp Hm [H0 H1] B. apply (proj1 (klt_R _ _)) in H0. apply (proj1 (klt_R _ _)) in H1.
  pose proof (nondec_R m U HM) as HN.
  assert (H1' : U (m-p-1)%Z < U (m-p-1+1)%Z) by (replace (m-p-1+1)%Z with (m-p)%Z by lia; auto).
  assert (EU : U (m-p)%Z = U (m-p-1+1)%Z) by (f_equal; lia).
  assert (V0 : forall a, (0 <= a <= p)%Z -> B false 0%Z a = bspline_piece U p (Z.to_nat p) a (U p)).
  { intros a Ha. unfold B, bnd_values. rewrite basis_value; auto; try lia; [f_equal; lia|intros; apply HN; lia]. }
  assert (V1 : forall a, (0 <= a <= p)%Z -> B true 0%Z a = bspline_piece U (m-p-1) (Z.to_nat p) (m-2*p-1+a) (U (m-p)%Z)).
  { intros a Ha. unfold B, bnd_values. rewrite basis_value; auto; try lia; [|intros; apply HN; lia].
    f_equal; [lia|f_equal; lia]. }
  split; [|split].
  - intros a Ha. split; [|split].
    + destruct (C30_values_are_bsplines p m U p (U p) (Z.min p 4) ndu0 a0 ders0 l0 r0 HM Hp ltac:(lia) H0 ltac:(lia)) as [C _].
      destruct (C ltac:(lra)) as [C1 _]. unfold B, bnd_values. rewrite C1 by lia. f_equal. lia.
    + destruct (C30_values_are_bsplines p m U (m-p-1) (U (m-p-1+1)%Z) (Z.min p 4) ndu0 a0 ders0 l0 r0 HM Hp ltac:(lia) H1' ltac:(lia)) as (_ & C & _).
      specialize (C eq_refl a Ha). rewrite EU.
      replace (m - p - 1 - p + a)%Z with (m-2*p-1+a)%Z in C by lia. exact C.
    + intros k Hk. split.
      * destruct (C31_derivatives p m U p (U p) ndu0 a0 ders0 l0 r0 HM Hp ltac:(lia) H0 k Hk) as [C _].
        specialize (C a Ha). replace (p-p+a)%Z with a in C by lia. exact C.
      * destruct (C31_derivatives p m U (m-p-1) (U (m-p-1+1)%Z) ndu0 a0 ders0 l0 r0 HM Hp ltac:(lia) H1' k Hk) as [C _].
        specialize (C a Ha). rewrite EU.
        replace (m - p - 1 - p + a)%Z with (m-2*p-1+a)%Z in C by lia. exact C.
  - intros HU a Ha. rewrite V0 by lia. apply piece_left; auto; try lia. intros x Hx.
    pose proof (HN 1%Z x ltac:(lia) ltac:(lia) ltac:(lia)). pose proof (HN x p ltac:(lia) ltac:(lia) ltac:(lia)). lra.
  - intros HU a Ha. rewrite V1 by lia. apply piece_right; auto; try lia. intros x Hx.
    pose proof (HN (m-p)%Z x ltac:(lia) ltac:(lia) ltac:(lia)). pose proof (HN x (m-1)%Z ltac:(lia) ltac:(lia) ltac:(lia)). lra.
Qed.
Print Assumptions C65_boundary_values.

(** Without nonempty end intervals the table of the left end is built by dividing by zero, although the
    knots are accepted and there is an element. *)
Definition bad_knots : Z -> R := fun i => if (i <? 2)%Z then 0 else if (i <? 4)%Z then 1 else if (i <? 6)%Z then 2 else 3.
Theorem C65_boundary_values_defined_refuted :
  exists p m (U : Z -> R), valid_knots (O:=Rord) p m U /\ is_element (O:=Rord) p m U 3 /\
  forall ndu0 l0 r0,
    (* the divisor of the first step of the loop at src/petigabsb.f90.in:17-22, j = 1, r = 0 *)
    ndu_table p (U p) p U ndu0 l0 r0 1 0 = 0.
Proof.
  exists 2%Z, 7%Z, bad_knots. split; [|split].
  - split; [lia|]. split; [lia|]. split.
    + intros i j Hi Hij Hj. apply kle_R. unfold bad_knots.
      destruct (i <? 2)%Z eqn:A1; destruct (j <? 2)%Z eqn:B1; destruct (i <? 4)%Z eqn:A2; destruct (j <? 4)%Z eqn:B2;
      destruct (i <? 6)%Z eqn:A3; destruct (j <? 6)%Z eqn:B3; try lra; exfalso; lia.
    + intros v. unfold count_eq. change (zseq 1 (7 - 1 - 1 + 1)) with [1; 2; 3; 4; 5; 6]%Z. cbn [filter].
      change (bad_knots 1%Z) with 0. change (bad_knots 2%Z) with 1. change (bad_knots 3%Z) with 1.
      change (bad_knots 4%Z) with 2. change (bad_knots 5%Z) with 2. change (bad_knots 6%Z) with 3.
      assert (E : forall x y : R, x <> y -> keqb (O:=Rord) x v = true -> keqb (O:=Rord) y v = false).
      { intros x y Hxy Hx. destruct (keqb (O:=Rord) y v) eqn:Hy; auto. exfalso. apply keqb_spec, keq_R in Hx. apply keqb_spec, keq_R in Hy.
        apply Hxy. congruence. }
      destruct (keqb (O:=Rord) 0 v) eqn:E0; [rewrite (E 0 1), (E 0 2), (E 0 3) by (auto; lra); simpl; lia|].
      destruct (keqb (O:=Rord) 1 v) eqn:E1; [rewrite (E 1 2), (E 1 3) by (auto; lra); simpl; lia|].
      destruct (keqb (O:=Rord) 2 v) eqn:E4; [rewrite (E 2 3) by (auto; lra); simpl; lia|].
      destruct (keqb (O:=Rord) 3 v); simpl; lia.
  - split; [lia|]. apply klt_R. unfold bad_knots. simpl. lra.
  - intros. unfold ndu_table. change (zseq 1 2) with [1; 2]%Z. cbv -[Rplus Rminus Rmult Rdiv Rinv Ropp IZR R]. ring.
Qed.
Print Assumptions C65_boundary_values_defined_refuted.

(** Quadratic functions 1, 2, 3 over the knots 0,0,0,1,4,5,5,5 at u = 2 in the span [1,4]. *)
Example C30_example : forall ndu0 a0 ders0 l0 r0,
  let B := basis_bspline 3 2 2 2 ex_knots ndu0 a0 ders0 l0 r0 in
  nondecreasing (O:=Rord) 7 ex_knots /\ ex_knots 3 <= 2 < ex_knots (3+1)%Z /\
  B 0%Z 0%Z = 1/3 /\ B 0%Z 1%Z = 7/12 /\ B 0%Z 2%Z = 1/12 /\ B 3%Z 1%Z = 0 /\
  bspline ex_knots 2 0 2 = 0 /\ bspline ex_knots 2 2 2 = 7/12.
Proof.
  intros. pose proof (proj1 (proj2 (proj2 ex_knots_valid))) as HM. pose proof (nondec_R 7 ex_knots HM) as HN.
  assert (HU : ex_knots 3 < ex_knots (3+1)%Z) by (unfold ex_knots; simpl; lra).
  assert (Hu : ex_knots 3 <= 2 < ex_knots (3+1)%Z) by (unfold ex_knots; simpl; lra).
  assert (V : forall a, (0 <= a <= 2)%Z -> B 0%Z a = bspline_piece ex_knots 3 2 (3-2+a) 2).
  { intros a Ha. unfold B. rewrite basis_value; auto; try lia. intros; apply HN; lia. }
  destruct (C30_values_are_bsplines 2 7 ex_knots 3 2 2 ndu0 a0 ders0 l0 r0 HM ltac:(lia) ltac:(lia) HU ltac:(lia)) as [C _].
  destruct (C Hu) as [C1 C2]. split; [auto|]. split; [auto|].
  assert (P : forall a, (0 <= a <= 2)%Z -> bspline_piece ex_knots 3 2 (3-2+a) 2 = if (a =? 0)%Z then 1/3 else if (a =? 1)%Z then 7/12 else 1/12).
  { intros a Ha. assert (D : (a = 0 \/ a = 1 \/ a = 2)%Z) by lia.
    destruct D as [-> | [-> | ->]]; unfold bspline_piece; cbn; unfold piece, ex_knots; simpl; rewrite ?Rmult_0_r, ?frac_0; rewrite ?frac_nz by lra; lra. }
  split; [rewrite V, P by lia; reflexivity|]. split; [rewrite V, P by lia; reflexivity|]. split; [rewrite V, P by lia; reflexivity|].
  split; [reflexivity|]. split; [apply (C2 0%Z); lia|].
  change (bspline ex_knots (Z.to_nat 2) (3 - 2 + 1) 2 = 7/12). rewrite <- C1 by lia. fold B. rewrite V, P by lia. reflexivity.
Qed.

(** First and second derivatives at the same place. *)
Example C31_example : forall ndu0 a0 ders0 l0 r0,
  let B := basis_bspline 3 2 2 (Z.min 2 4) ex_knots ndu0 a0 ders0 l0 r0 in
  is_derive (bspline ex_knots 2 1) 2 (B 1%Z 0%Z) /\ B 1%Z 0%Z = -1/3 /\ B 2%Z 0%Z = 1/6 /\ B 3%Z 0%Z = 0.
Proof.
  intros. pose proof (proj1 (proj2 (proj2 ex_knots_valid))) as HM. pose proof (nondec_R 7 ex_knots HM) as HN.
  assert (HU : ex_knots 3 < ex_knots (3+1)%Z) by (unfold ex_knots; simpl; lra).
  pose proof (C31_derivatives 2 7 ex_knots 3 2 ndu0 a0 ders0 l0 r0 HM ltac:(lia) ltac:(lia) HU) as C. cbv zeta in C. fold B in C.
  assert (Q : forall v, bspline_piece ex_knots 3 2 1 v = (4 - v) * (4 - v) / 12).
  { intros v. unfold bspline_piece; cbn; unfold piece, ex_knots; simpl; rewrite ?Rmult_0_r, ?frac_0; rewrite ?frac_nz by lra; field. }
  assert (D1 : forall v, Derive (bspline_piece ex_knots 3 2 1) v = - (4 - v) / 6).
  { intros v. rewrite (Derive_ext _ (fun v => (4 - v) * (4 - v) / 12)) by auto. apply is_derive_unique. auto_derive; auto. field. }
  split; [|split; [|split]].
  - destruct (C 1%Z ltac:(lia)) as (_ & C1 & _). exact (C1 0%Z ltac:(lia) ltac:(unfold ex_knots; simpl; lra)).
  - destruct (C 1%Z ltac:(lia)) as (C1 & _). specialize (C1 0%Z ltac:(lia)). apply is_derive_unique in C1. rewrite <- C1.
    change (Derive (bspline_piece ex_knots 3 2 1) 2 = -1/3). rewrite D1. field.
  - destruct (C 2%Z ltac:(lia)) as (C1 & _). specialize (C1 0%Z ltac:(lia)). apply is_derive_n_unique in C1. rewrite <- C1.
    change (Derive (Derive (bspline_piece ex_knots 3 2 1)) 2 = 1/6). rewrite (Derive_ext _ _ _ D1). apply is_derive_unique. auto_derive; auto. field.
  - reflexivity.
Qed.
Example C65_example : ends_nonempty (O:=Rord) 2 7 ex_knots /\ ex_knots 1 = ex_knots 2 /\ ex_knots (7-2)%Z = ex_knots (7-1)%Z.
Proof. unfold ends_nonempty. rewrite !klt_R. unfold ex_knots; simpl. repeat split; lra. Qed.

(** Two-point Gauss-Legendre on three quadratic elements: the hypotheses of C64 hold and every point is reached. *)
Example C64_example : forall lit maxreal, rounds lit ->
  let r := snd (rule_run lit [OpSetSize 2] rule_create) in
  fst (rule_run lit [OpSetSize 2] rule_create) = [Ok] /\ usable lit r /\ ru_nqp r = 2%Z /\ ru_type r = RLegendre /\
  exists B, init_quadrature lit maxreal true 2 7 ex_knots [2; 3; 4]%Z r = (Ok, r, Some B) /\ bq_nel B = 3%Z /\
    nth 1 (bq_weight B 1) 0 <> 0 /\ bq_offset B 1 = 1%Z.
Proof.
  intros lit maxreal HL r. split; [reflexivity|].
  assert (Us : usable lit r).
  { right. split; [simpl; lia|]. do 2 eexists. repeat split; reflexivity. }
  split; auto. split; [reflexivity|]. split; [reflexivity|]. eexists. split; [reflexivity|]. split; [reflexivity|]. split; [|reflexivity].
  destruct (legendre_good lit 2 HL ltac:(lia)) as (X & W & G & _ & LW & _ & P & _). injection G as _ <-. cbn [bq_weight r].
  inversion P as [|? ? P0 P']; subst. change (lit 1000000000000000000000000000000000000%Z <> 0). lra.
Qed.
