(** Theorems about quadrature rules, element quadrature and repeated setup (C36, C37, C38, C39, C40). *)
From Coq Require Import ZArith List Bool Lia Reals Lra Permutation.
From Coquelicot Require Import Coquelicot.
From Flocq Require Import Core Relative.
From Verif Require Import Prelude RealOrd AxisModel AxisSpec PartModel PartSpec PartProofs PartProps SetupModel SetupProofs SetupProps Box GridModel GridSpec GridProofs
  GridSetup GridProps AsmProofs BCProofs2 RuleModel RuleSpec RuleProofs RuleProofs2 LifeModel.
Import ListNotations.
Open Scope R_scope.

(** * C36 *)
(** For every way [lit] of storing the constants with relative error at most 2^-53 (constants of
    magnitude at most one staying so). *)
Theorem C36_gauss_legendre_tables :
  forall lit, rounds lit -> forall q, (1 <= q <= 10)%Z ->
  exists X W, gauss_legendre lit Ropp q = Some (X, W) /\
    length X = Z.to_nat q /\ length W = Z.to_nat q /\
    (List.Forall (fun x => -1 <= x <= 1) X) /\ (List.Forall (fun w => 0 < w) W) /\ symmetric X W /\
    Rabs (sumR W - 2) <= / 10^13 /\
    integrates (Z.to_nat (2*q)) (/ 10^13) (-1) 1 X W.
Proof. intros lit H q. exact (legendre_good lit q H). Qed.
Print Assumptions C36_gauss_legendre_tables.

Theorem C36_gauss_lobatto_tables :
  forall lit, rounds lit -> forall q, (2 <= q <= 10)%Z ->
  exists X W, gauss_lobatto lit Ropp q = Some (X, W) /\
    length X = Z.to_nat q /\ length W = Z.to_nat q /\
    (List.Forall (fun x => -1 <= x <= 1) X) /\ (List.Forall (fun w => 0 < w) W) /\ symmetric X W /\
    Rabs (sumR W - 2) <= / 10^13 /\
    integrates (Z.to_nat (2*q-2)) (/ 10^13) (-1) 1 X W.
Proof. intros lit H q. exact (lobatto_good lit q H). Qed.
Print Assumptions C36_gauss_lobatto_tables.

Theorem C36_other_sizes_are_refused :
  forall lit q, (~ (1 <= q <= 10)%Z -> gauss_legendre lit Ropp q = None) /\ (~ (2 <= q <= 10)%Z -> gauss_lobatto lit Ropp q = None).
Proof. intros lit q. split; [apply legendre_none|apply lobatto_none]. Qed.
Print Assumptions C36_other_sizes_are_refused.

(** The hypothesis holds for constants read as IEEE double precision numbers, rounded to nearest even. *)
Theorem C36_double_precision :
  rounds (fun z => round radix2 (FLT_exp (-1074) 53) ZnearestE (dec z)).
Proof.
  split.
  - intros z. destruct (Z.eq_dec z 0) as [->|Hz].
    + unfold dec, Rdiv. rewrite Rmult_0_l, round_0 by apply valid_rnd_N. rewrite Rminus_0_r, Rabs_R0. lra.
    + pose proof (relative_error_N_FLT radix2 (-1074) 53 ltac:(lia) (fun x => negb (Z.even x)) (dec z)) as H.
      change (/ 2 * bpow radix2 (- (53) + 1)) with (/ 2 * / IZR (Z.pow_pos 2 52)) in H.
      replace (/ 2 * / IZR (Z.pow_pos 2 52)) with (/ 2^53) in H.
      2:{ change (Z.pow_pos 2 52) with (2^52)%Z. replace (IZR (2^52)) with (2^52).
          - field.
          - rewrite (pow_IZR 2 52). reflexivity. }
      apply H. clear H. apply Rle_trans with (/ 10^36).
      * change (-1074 + 53 - 1)%Z with (-1022)%Z. apply Rle_trans with (bpow radix2 (-120)); [apply bpow_le; lia|].
        change (bpow radix2 (-120)) with (/ IZR (Z.pow_pos 2 120)). apply Rinv_le_contravar; [lra|].
        rewrite (pow_IZR 10 36). apply IZR_le. vm_compute. discriminate.
      * unfold dec, Rdiv. rewrite Rabs_mult, <- abs_IZR.
        assert (E : Rabs (/ IZR S36) = / 10^36).
        { rewrite Rabs_pos_eq; [|left; apply Rinv_0_lt_compat, S36_pos]. f_equal. unfold S36. rewrite (pow_IZR 10 36). reflexivity. }
        rewrite E. rewrite <- (Rmult_1_l (/ 10^36)) at 1. apply Rmult_le_compat_r; [left; apply Rinv_0_lt_compat; lra|].
        apply IZR_le. lia.
  - intros z Hz. assert (D : Rabs (dec z) <= 1).
    { unfold dec, Rdiv. rewrite Rabs_mult, <- abs_IZR, (Rabs_pos_eq (/ _)) by (left; apply Rinv_0_lt_compat, S36_pos).
      apply IZR_le in Hz. pose proof S36_pos. apply (Rmult_le_reg_r (IZR S36)); auto. rewrite Rmult_assoc, Rinv_l; lra. }
    assert (G1 : generic_format radix2 (FLT_exp (-1074) 53) 1).
    { change 1 with (bpow radix2 0). apply generic_format_FLT_bpow; [reflexivity|lia]. }
    apply abs_round_le_generic; auto; try apply valid_rnd_N. apply FLT_exp_valid. reflexivity.
Qed.
Print Assumptions C36_double_precision.

(** * C37 *)
Definition spans_of (a : axis Rord) : list Z := match ax_span a with Some l => l | None => [] end.

(** Rules other than IGA_RULE_REDUCED: what the tables of an element contain, for a rule with points X
    and weights W that integrates polynomials of degree < d on [-1,1] up to eps. *)
Theorem C37_element_quadrature :
  forall lit maxreal bspline p m (U : Z -> R) spans r r' B X W d eps,
  nondecreasing (O:=Rord) m U -> (0 <= p)%Z -> (2*p+1 <= m)%Z -> is_element_list (O:=Rord) p m U spans ->
  init_quadrature lit maxreal bspline p m U spans r = (Ok, r', Some B) ->
  ru_type r' <> RReduced -> ru_point r' = Some X -> ru_weight r' = Some W ->
  length X = Z.to_nat (ru_nqp r') -> length W = Z.to_nat (ru_nqp r') ->
  List.Forall (fun x => -1 <= x <= 1) X -> integrates d eps (-1) 1 X W ->
  bq_nqp B = ru_nqp r' /\ bq_nel B = Z.of_nat (length spans) /\
  (forall e, (0 <= e < bq_nel B)%Z ->
     let k := nth (Z.to_nat e) spans 0%Z in let a := U k in let b := U (k+1)%Z in
     a < b /\ bq_detJac B e = (b - a) / 2 /\
     length (bq_point B e) = Z.to_nat (bq_nqp B) /\ bq_weight B e = W /\
     List.Forall (fun u => a <= u <= b) (bq_point B e) /\
     (* in coordinates of the reference interval, with the error of the rule *)
     (forall c, (length c <= d)%nat ->
        let f := fun u => peval c ((u - a) / ((b - a) / 2) - 1) in
        Rabs (quad (bq_point B e) (map (Rmult (bq_detJac B e)) (bq_weight B e)) f - RInt f a b) <= (b - a) / 2 * eps * pnorm c) /\
     (* exactly, for every polynomial of that degree, when the rule is exact *)
     (eps = 0 -> integrates d 0 a b (bq_point B e) (map (Rmult (bq_detJac B e)) (bq_weight B e)))) /\
  (* all elements together *)
  rsum (fun e => bq_detJac B e * sumR (bq_weight B e)) (zseq 0 (bq_nel B)) = (U (m-p)%Z - U p) / 2 * sumR W.
Proof.
  intros lit maxreal bs p m U spans r r' B X W d eps Hnd Hp Hm HE HQ HT HPX HPW LX LW HX HI.
  unfold init_quadrature in HQ. destruct (if (ru_nqp r <? 1)%Z then rule_set_size lit (p+1) r else (Ok, r)) as [s r1].
  destruct s; try discriminate. destruct (negb bs && negb (mult_ok p m U (Z.to_nat (m+1)) 1)); [discriminate|].
  assert (r1 = r' /\ negb (rtype_eqb (ru_type r1) RReduced) = true) as [-> E].
  { destruct (negb (rtype_eqb (ru_type r1) RReduced)) eqn:E; [injection HQ as -> _; auto|].
    assert (T : ru_type r1 = RReduced) by (destruct (ru_type r1); auto; discriminate).
    destruct ((2 <? Z.of_nat (length spans))%Z && (1 <? ru_nqp r1)%Z).
    - destruct (rule_set_size lit (ru_nqp r1 - 1) r1) as [s2 r2] eqn:S2. destruct s2; try discriminate. injection HQ as -> _.
      exfalso. apply HT. rewrite <- T. unfold rule_set_size in S2. destruct (ru_nqp r1 - 1 <? 1)%Z; [discriminate|].
      destruct (ru_nqp r1 =? ru_nqp r1 - 1)%Z; [injection S2 as <-; auto|].
      unfold rule_setup in S2. cbn [ru_nqp ru_type ru_point ru_weight] in S2. destruct (ru_nqp r1 - 1 <? 1)%Z; [discriminate|].
      destruct (compute_rule lit (ru_type r1) (ru_nqp r1 - 1)) as [[[? ?]|]|]; try discriminate; injection S2 as <-; reflexivity.
    - injection HQ as -> _. congruence. }
  rewrite E in HQ. injection HQ as <-. cbn [bq_nqp bq_nel bq_detJac bq_point bq_weight]. rewrite HPX, HPW. unfold pts.
  split; auto. split; auto. split.
  - intros e He. set (k := nth (Z.to_nat e) spans 0%Z). set (a := U k). set (b := U (k+1)%Z).
    assert (Hin : In k spans) by (apply nth_In; lia). apply (proj1 HE) in Hin. destruct Hin as [Hk Hlt]. apply klt_R in Hlt.
    unfold elem_detJac, elem_points. fold a b. rewrite (zseq_nil 0 (ru_nqp r' - Z.of_nat (length X))) by lia.
    cbn [map]. rewrite app_nil_r.
    change (kT Rord) with R in *. fold a b in Hlt.
    assert (HJ : 0 < (b - a) / 2) by lra.
    assert (Eb : a + 2 * ((b - a) / 2) = b) by field.
    split; [exact Hlt|]. split; [reflexivity|]. split; [rewrite map_length; auto|]. split; [reflexivity|].
    split; [pose proof (elem_inside X a ((b - a) / 2) HJ HX) as Q; rewrite Eb in Q; exact Q|]. split.
    + intros c Hc. pose proof (elem_local X W d eps a ((b - a) / 2) HJ HI c Hc) as Q. rewrite Eb in Q. exact Q.
    + intros Ee. pose proof (elem_exact X W d eps a ((b - a) / 2) HJ HI Ee) as Q. rewrite Eb in Q. exact Q.
  - rewrite (rsum_ext _ _ (fun e => sumR W / 2 * (U (nth (Z.to_nat e) spans 0 + 1)%Z - U (nth (Z.to_nat e) spans 0%Z)))).
    2:{ intros e _. unfold elem_detJac. field. }
    rewrite rsum_scal. rewrite <- (rsum_map _ _ (fun k => U (k+1)%Z - U k) (fun e => nth (Z.to_nat e) spans 0%Z)).
    replace (map (fun e => nth (Z.to_nat e) spans 0%Z) (zseq 0 (Z.of_nat (length spans)))) with spans.
    + rewrite (elements_length p m U spans) by auto. field.
    + symmetry. apply map_nth_zseq.
Qed.
Print Assumptions C37_element_quadrature.

(** IGA_RULE_REDUCED: interior elements use the Gauss-Legendre rule with one point less; the unused
    last slot has weight zero, so whatever is stored for it does not contribute. *)
Theorem C37_reduced_rule :
  forall lit maxreal bspline p m (U : Z -> R) spans r r' B,
  usable lit r -> (0 <= p)%Z -> ru_type r = RReduced ->
  init_quadrature lit maxreal bspline p m U spans r = (Ok, r', Some B) ->
  let q := bq_nqp B in let nel := bq_nel B in
  nel = Z.of_nat (length spans) /\ (1 <= q)%Z /\
  forall e, (0 <= e < nel)%Z ->
    let qe := if (e =? 0)%Z || (e =? nel - 1)%Z || (q =? 1)%Z then q else (q - 1)%Z in
    let k := nth (Z.to_nat e) spans 0%Z in
    exists X W, gauss_legendre lit Ropp qe = Some (X, W) /\
      bq_weight B e = W ++ zeros (q - qe) /\ length (bq_point B e) = Z.to_nat q /\
      firstn (Z.to_nat qe) (bq_point B e) = map (fun x => (x + 1) * ((U (k+1)%Z - U k) / 2) + U k) X /\
      forall f, quad (bq_point B e) (map (Rmult (bq_detJac B e)) (bq_weight B e)) f =
                (U (k+1)%Z - U k) / 2 * quad X W (fun x => f ((x + 1) * ((U (k+1)%Z - U k) / 2) + U k)).
Proof.
  intros lit maxreal bs p m U spans r r' B Hu Hp HT HQ. unfold init_quadrature in HQ.
  destruct (if (ru_nqp r <? 1)%Z then rule_set_size lit (p+1) r else (Ok, r)) as [s r1] eqn:E1.
  destruct s; try discriminate. destruct (negb bs && negb (mult_ok p m U (Z.to_nat (m+1)) 1)); [discriminate|].
  assert (K : usable lit r1 /\ (1 <= ru_nqp r1)%Z /\ ru_type r1 = RReduced).
  { destruct (ru_nqp r <? 1)%Z eqn:E.
    - apply set_size_usable in E1; auto. destruct E1 as (A & B' & C). rewrite C. split; auto. split; auto; lia.
    - injection E1 as <-. split; auto. split; auto; lia. }
  destruct K as (U1 & N1 & T1). rewrite T1 in HQ. cbn [rtype_eqb negb] in HQ.
  set (cond := (2 <? Z.of_nat (length spans))%Z && (1 <? ru_nqp r1)%Z) in *.
  destruct (if cond then rule_set_size lit (ru_nqp r1 - 1) r1 else (Ok, r1)) as [s2 r2] eqn:E2.
  destruct s2; try discriminate. injection HQ as <- <-. cbn [bq_nqp bq_nel bq_detJac bq_point bq_weight].
  split; [reflexivity|]. split; [exact N1|].
  assert (U2 : usable lit r2 /\ ru_type r2 = RReduced /\ ru_nqp r2 = (if cond then ru_nqp r1 - 1 else ru_nqp r1)%Z /\ (1 <= ru_nqp r2)%Z).
  { destruct cond eqn:EC.
    - assert (1 <= ru_nqp r1 - 1)%Z by (unfold cond in EC; lia).
      apply set_size_usable in E2; auto. destruct E2 as (A & B' & C). rewrite C, B'. auto.
    - injection E2 as <-. auto. }
  destruct U2 as (U2 & T2 & N2 & P2).
  assert (G : forall r0, usable lit r0 -> ru_type r0 = RReduced -> (1 <= ru_nqp r0)%Z ->
     gauss_legendre lit Ropp (ru_nqp r0) = Some (pts (ru_point r0), pts (ru_weight r0)) /\
     length (pts (ru_point r0)) = Z.to_nat (ru_nqp r0) /\ length (pts (ru_weight r0)) = Z.to_nat (ru_nqp r0)).
  { intros r0 [(Q & _)|(_ & X & W & Q1 & Q2 & L1 & L2 & Q3)] T N; [lia|]. rewrite T in Q3. rewrite Q1, Q2. simpl. auto. }
  destruct (G r1 U1 T1 N1) as (G1 & LX1 & LW1). destruct (G r2 U2 T2 P2) as (G2 & LX2 & LW2).
  intros e He.
  set (qe := if (e =? 0)%Z || (e =? Z.of_nat (length spans) - 1)%Z || (ru_nqp r1 =? 1)%Z then ru_nqp r1 else (ru_nqp r1 - 1)%Z).
  set (k := nth (Z.to_nat e) spans 0%Z). set (J := (U (k+1)%Z - U k) / 2).
  assert (H : exists r0, (if (e =? 0)%Z || (e =? Z.of_nat (length spans) - 1)%Z then pts (ru_point r1) else pts (ru_point r2)) = pts (ru_point r0) /\
     (if (e =? 0)%Z || (e =? Z.of_nat (length spans) - 1)%Z then pts (ru_weight r1) else pts (ru_weight r2)) = pts (ru_weight r0) /\
     gauss_legendre lit Ropp qe = Some (pts (ru_point r0), pts (ru_weight r0)) /\
     length (pts (ru_point r0)) = Z.to_nat qe /\ length (pts (ru_weight r0)) = Z.to_nat qe).
  { unfold qe. destruct ((e =? 0)%Z || (e =? Z.of_nat (length spans) - 1)%Z) eqn:EE.
    - exists r1. rewrite orb_true_l. auto.
    - exists r2. rewrite orb_false_l. split; auto. split; auto.
      assert (C : cond = (1 <? ru_nqp r1)%Z) by (unfold cond; apply orb_false_iff in EE; lia).
      destruct (ru_nqp r1 =? 1)%Z eqn:E3.
      + rewrite C in N2. replace (1 <? ru_nqp r1)%Z with false in N2 by lia. rewrite N2 in *. auto.
      + rewrite C in N2. replace (1 <? ru_nqp r1)%Z with true in N2 by lia. rewrite N2 in *. auto. }
  destruct H as (r0 & -> & -> & GG & LX & LW). exists (pts (ru_point r0)), (pts (ru_weight r0)).
  assert (Hqe : (0 <= qe <= ru_nqp r1)%Z) by (unfold qe; destruct ((e =? 0)%Z || _ || _); lia).
  split; [exact GG|]. unfold elem_weights, elem_points. fold k. cbv zeta. fold J. rewrite LW, LX, Z2Nat.id by lia.
  split; [reflexivity|]. split; [rewrite app_length, !map_length, length_zseq; lia|]. split.
  - rewrite firstn_app. rewrite map_length, LX, Nat.sub_diag. simpl firstn at 2. rewrite app_nil_r. apply firstn_all2. rewrite map_length. lia.
  - intros f. rewrite quad_scal_weights, quad_app by (rewrite map_length; congruence).
    rewrite quad_zero, Rplus_0_r, quad_map_points. unfold elem_detJac. fold k. fold J. reflexivity.
Qed.
Print Assumptions C37_reduced_rule.

(** Product rule over the elements of all processes: the weights times the one-dimensional Jacobians add
    up to the product of the lengths.  [vol d e]: sum over the points of element e of direction d. *)
Theorem C37_parametric_volume :
  forall g2 g3 maxint size dim (axes : Z -> axis Rord) user LY,
  setup_ok g2 g3 maxint size dim axes user LY ->
  forall order, Permutation order (zseq 0 size) ->
  forall lit maxreal bspline (rules : Z -> rule) (rules' : Z -> rule) (B : Z -> basis_q) (s : Z -> R),
  let A := fun d => if (d <? dim)%Z then axes d else axis_create (O:=Rord) (-1/2) (1/2) in
  (forall d, (0 <= d < 3)%Z ->
     init_quadrature lit maxreal bspline (ax_p (A d)) (ax_m (A d)) (ax_U (A d)) (spans_of (A d)) (rules d) = (Ok, rules' d, Some (B d)) /\
     forall e, (0 <= e < bq_nel (B d))%Z -> sumR (bq_weight (B d) e) = s d) ->
  let vol := fun d e => bq_detJac (B d) e * sumR (bq_weight (B d) e) in
  rsum (fun r => rsum (fun e => let '(i, j, k) := e in vol 0%Z i * vol 1%Z j * vol 2%Z k)
                      (box (ly_elem_start (LY r)) (ly_elem_width (LY r)))) order
  = let len := fun d => if (d <? dim)%Z then ax_U (axes d) (ax_m (axes d) - ax_p (axes d))%Z - ax_U (axes d) (ax_p (axes d)) else 1 in
    (len 0%Z / 2 * s 0%Z) * (len 1%Z / 2 * s 1%Z) * (len 2%Z / 2 * s 2%Z).
Proof.
  intros g2 g3 maxint size dim axes user LY S order Ho lit maxreal bs rules rules' B s A HB vol.
  pose proof (setup_elem_tile _ _ _ _ _ _ _ _ S) as HT.
  etransitivity; [exact (rsum_tiles size (elem_size dim axes) _ _ (fun e => let '(i, j, k) := e in vol 0%Z i * vol 1%Z j * vol 2%Z k) order HT Ho)|].
  (* one direction *)
  assert (D : forall d, (0 <= d < 3)%Z -> bq_nel (B d) = elem_size dim axes d /\
     rsum (vol d) (zseq 0 (elem_size dim axes d)) =
     (if (d <? dim)%Z then ax_U (axes d) (ax_m (axes d) - ax_p (axes d))%Z - ax_U (axes d) (ax_p (axes d)) else 1) / 2 * s d).
  { intros d Hd. destruct (HB d Hd) as [HQ Hs].
    assert (F : bq_nel (B d) = Z.of_nat (length (spans_of (A d))) /\
                forall e, bq_detJac (B d) e = elem_detJac (ax_U (A d)) (nth (Z.to_nat e) (spans_of (A d)) 0%Z)).
    { unfold init_quadrature in HQ. destruct (if (ru_nqp (rules d) <? 1)%Z then _ else _) as [st r1]. destruct st; try discriminate.
      destruct (negb bs && _); [discriminate|]. destruct (negb (rtype_eqb (ru_type r1) RReduced)).
      - injection HQ as _ <-. split; reflexivity.
      - destruct (if _ && _ then rule_set_size lit (ru_nqp r1 - 1) r1 else (Ok, r1)) as [st2 r2]. destruct st2; try discriminate.
        injection HQ as _ <-. split; reflexivity. }
    destruct F as [F1 F2].
    assert (L : Z.of_nat (length (spans_of (A d))) = elem_size dim axes d /\
      rsum (fun k => ax_U (A d) (k+1)%Z - ax_U (A d) k) (spans_of (A d)) =
      (if (d <? dim)%Z then ax_U (axes d) (ax_m (axes d) - ax_p (axes d))%Z - ax_U (axes d) (ax_p (axes d)) else 1)).
    { unfold A, elem_size, spans_of. destruct (d <? dim)%Z eqn:E.
      - destruct (setup_wf _ _ _ _ _ _ _ _ S d ltac:(lia)) as (l & (L1 & (V1 & V2 & V3 & V4) & V5 & V6 & _) & _). rewrite L1. split; [auto|].
        apply elements_length; auto; lia.
      - split; [reflexivity|]. change (1/2 - (-1/2) + 0 = 1). lra. }
    destruct L as [L1 L2]. split; [congruence|].
    rewrite <- L2, <- L1. unfold vol.
    rewrite (rsum_ext _ _ (fun e => s d / 2 * (ax_U (A d) (nth (Z.to_nat e) (spans_of (A d)) 0 + 1)%Z - ax_U (A d) (nth (Z.to_nat e) (spans_of (A d)) 0%Z)))).
    2:{ intros e He. apply in_zseq in He. rewrite Hs by lia. rewrite F2. unfold elem_detJac. change (kT Rord) with R. field. }
    rewrite rsum_scal. rewrite <- (rsum_map _ _ (fun k => ax_U (A d) (k+1)%Z - ax_U (A d) k) (fun e => nth (Z.to_nat e) (spans_of (A d)) 0%Z)).
    rewrite map_nth_zseq. change (kT Rord) with R. field. }
  unfold box, zero3. rewrite rsum_flat_map.
  rewrite (rsum_ext _ _ (fun k => (rsum (vol 0%Z) (zseq 0 (elem_size dim axes 0)) * rsum (vol 1%Z) (zseq 0 (elem_size dim axes 1))) * vol 2%Z k)).
  2:{ intros k _. rewrite rsum_flat_map.
      rewrite (rsum_ext _ _ (fun j => (rsum (vol 0%Z) (zseq 0 (elem_size dim axes 0)) * vol 2%Z k) * vol 1%Z j)).
      2:{ intros j _. rewrite rsum_map. rewrite (rsum_ext _ _ (fun i => (vol 1%Z j * vol 2%Z k) * vol 0%Z i)) by (intros; ring).
          rewrite rsum_scal. ring. }
      rewrite rsum_scal. ring. }
  rewrite rsum_scal. rewrite (proj2 (D 0%Z ltac:(lia))), (proj2 (D 1%Z ltac:(lia))), (proj2 (D 2%Z ltac:(lia))). reflexivity.
Qed.
Print Assumptions C37_parametric_volume.

(** One-point rule on three elements of unequal length. *)
Definition ex_knots : Z -> R := fun i => if (i <? 3)%Z then 0 else if (i =? 3)%Z then 1 else if (i =? 4)%Z then 4 else 5.
Example C37_example :
  is_element_list (O:=Rord) 2 7 ex_knots [2; 3; 4]%Z /\
  integrates 2 0 (-1) 1 [0] [2] /\
  match init_quadrature (fun z => dec z) 0 true 2 7 ex_knots [2; 3; 4]%Z (snd (rule_run (fun z => dec z) [OpSetRule 1 [0] [2]] rule_create)) with
  | (Ok, _, Some B) => bq_nel B = 3%Z /\ bq_point B 1 = [(0 + 1) * ((4 - 1) / 2) + 1] /\ bq_detJac B 1 = (4 - 1) / 2
  | _ => False
  end.
Proof.
  split; [|split].
  - split.
    + intros k. unfold is_element. rewrite klt_R. split.
      * intros [<- | [<- | [<- | []]]]; (split; [lia|]); unfold ex_knots; simpl; lra.
      * intros [Hk _]. simpl. lia.
    + repeat constructor.
  - assert (I : forall a b c, (forall x, peval c x = a + x * b) -> is_RInt (peval c) (-1) 1 (2 * a)).
    { intros a b c Hc.
      replace (2 * a) with (minus ((fun x => a * x + b * x^2 / 2) 1) ((fun x => a * x + b * x^2 / 2) (-1))) by (unfold minus, plus, opp; simpl; field).
      apply (is_RInt_derive (fun x => a * x + b * x^2 / 2) (peval c)).
      - intros x _. rewrite Hc. auto_derive; auto. field.
      - intros x _. apply (continuous_ext (fun x => a + x * b)); [intros; symmetry; apply Hc|]. apply (ex_derive_continuous (fun x => a + x * b)). auto_derive. auto. }
    intros c Hc. destruct c as [|a [|b [|c c']]]; simpl in Hc; try lia.
    + rewrite (is_RInt_unique _ _ _ _ (I 0 0 [] ltac:(intros; simpl; ring))).
      simpl. match goal with |- Rabs ?t <= _ => replace t with 0 by ring end. rewrite Rabs_R0. lra.
    + rewrite (is_RInt_unique _ _ _ _ (I a 0 [a] ltac:(intros; simpl; ring))).
      simpl. match goal with |- Rabs ?t <= _ => replace t with 0 by ring end. rewrite Rabs_R0. lra.
    + rewrite (is_RInt_unique _ _ _ _ (I a b [a; b] ltac:(intros; simpl; ring))).
      simpl. match goal with |- Rabs ?t <= _ => replace t with 0 by ring end. rewrite Rabs_R0. lra.
  - cbn. unfold elem_points, elem_detJac, ex_knots; cbn. repeat split.
Qed.

(** Two processes sharing these three elements: the hypotheses of the volume theorem hold. *)
Definition ex_raxes : Z -> axis Rord := fun _ => mk_axis (O:=Rord) false 2 7 ex_knots 5 3 (Some [2; 3; 4]%Z).
Definition ex_rLY (r : Z) : layout := layout_of 1 ex_raxes [2%Z] (rank_coords [2%Z] r).
Lemma ex_knots_elements : is_element_list (O:=Rord) 2 7 ex_knots [2; 3; 4]%Z.
Proof. exact (proj1 C37_example). Qed.
Lemma ex_rsetup_ok : setup_ok exact_g2 exact_g3 (2^31-1) 2 1 ex_raxes [(-1)%Z] ex_rLY.
Proof.
  destruct ex_setup_ok as (H2 & H3 & _). split; [exact H2|]. split; [exact H3|]. split; [lia|]. split.
  - intros i _. split.
    + exists [2; 3; 4]%Z. split; [reflexivity|]. split; [|split; [exact ex_knots_elements|split; reflexivity]].
      split; [cbn; lia|]. split; [cbn; lia|].
      split.
      * intros j k H0 Hj Hk. apply kle_R. change (ex_knots j <= ex_knots k). unfold ex_knots.
        destruct (j <? 3)%Z eqn:E1, (j =? 3)%Z eqn:E2, (j =? 4)%Z eqn:E3, (k <? 3)%Z eqn:E4, (k =? 3)%Z eqn:E5, (k =? 4)%Z eqn:E6; try lia; lra.
      * intros v. change (Z.of_nat (length (filter (fun j => keqb (O:=Rord) (ex_knots j) v) [1;2;3;4;5;6]%Z)) <= 2)%Z. cbn [filter].
        destruct (keqb (ex_knots 1) v) eqn:E1, (keqb (ex_knots 2) v) eqn:E2, (keqb (ex_knots 3) v) eqn:E3, (keqb (ex_knots 4) v) eqn:E4, (keqb (ex_knots 5) v) eqn:E5, (keqb (ex_knots 6) v) eqn:E6;
        cbn [length]; try lia; exfalso;
        repeat match goal with E : keqb _ _ = true |- _ => apply keqb_spec in E; unfold keq in E; destruct E as [? E]; simpl in *; apply Rltb_false in E end; repeat match goal with E : Rltb _ _ = false |- _ => apply Rltb_false in E end; unfold ex_knots in *; simpl in *; lra.
    + split; apply klt_R; [change (ex_knots 2 < ex_knots 3)|change (ex_knots 4 < ex_knots 5)]; unfold ex_knots; simpl; lra.
  - intros r Hr. unfold stage1, ex_rLY.
    assert (E : r = 0%Z \/ r = 1%Z) by lia. destruct E as [-> | ->].
    + assert (E : partition exact_g2 exact_g3 (2^31-1) 2 0 [3%Z] [(-1)%Z] = (Ok, [2%Z], rank_coords [2%Z] 0)) by (vm_compute; reflexivity).
      change (map _ (zseq 0 1)) with [3%Z]. rewrite E. reflexivity.
    + assert (E : partition exact_g2 exact_g3 (2^31-1) 2 1 [3%Z] [(-1)%Z] = (Ok, [2%Z], rank_coords [2%Z] 1)) by (vm_compute; reflexivity).
      change (map _ (zseq 0 1)) with [3%Z]. rewrite E. reflexivity.
Qed.
Example C37_volume_example :
  let r0 := snd (rule_run (fun z => dec z) [OpSetRule 1 [0] [2]] rule_create) in
  let A := fun d => if (d <? 1)%Z then ex_raxes d else axis_create (O:=Rord) (-1/2) (1/2) in
  forall d, (0 <= d < 3)%Z ->
  match init_quadrature (fun z => dec z) 0 true (ax_p (A d)) (ax_m (A d)) (ax_U (A d)) (spans_of (A d)) r0 with
  | (Ok, _, Some B) => forall e, (0 <= e < bq_nel B)%Z -> sumR (bq_weight B e) = 2
  | _ => False
  end.
Proof.
  intros r0 A d Hd. assert (E : d = 0%Z \/ d = 1%Z \/ d = 2%Z) by lia.
  destruct E as [-> | [-> | ->]]; cbn; intros e _; unfold elem_weights; cbn; change (2 + 0 = 2); lra.
Qed.

(** * C38 *)
(** IGASetUp marks the object as set up before doing the work: after a failure the next call succeeds
    although no index ranges exist. *)
Theorem C38_failed_setup_reports_error_again_refuted :
  exists (size rank : Z) (g : iga (O:=Zord)) (g' : iga),
    (* one process, but the user asked for two along the only direction *)
    iga_setup exact_g2 exact_g3 (2^31-1)%Z size rank (fun _ => Ok) (fun _ => Ok) g = (ErrRange, g') /\
    iga_setup exact_g2 exact_g3 (2^31-1)%Z size rank (fun _ => Ok) (fun _ => Ok) g' = (Ok, g') /\
    ig_layout g' = None.
Proof.
  exists 1%Z, 0%Z. set (g := mk_iga 1 ex_axes [2%Z] false 0 None). exists g.
  exists (mk_iga 1 ex_axes [2%Z] true 1 None). split; [|split]; reflexivity.
Qed.
Print Assumptions C38_failed_setup_reports_error_again_refuted.

(** What does hold: a first call that succeeds has computed the ranges, and further calls change nothing. *)
Theorem C38_successful_setup :
  forall (O : KnotOrd) g2 g3 maxint size rank stage2 stage3 (g g' : iga (O:=O)),
  ig_setup g = false -> ig_stage g = 0%Z ->
  iga_setup g2 g3 maxint size rank stage2 stage3 g = (Ok, g') ->
  (1 <= ig_dim g)%Z /\
  (exists ly, ig_layout g' = Some ly /\ stage1 g2 g3 maxint size rank (ig_dim g) (ig_axes g) (ig_user g) = (Ok, Some ly)) /\
  ig_setup g' = true /\ ig_stage g' = 3%Z /\
  iga_setup g2 g3 maxint size rank stage2 stage3 g' = (Ok, g').
Proof.
  intros O g2 g3 maxint size rank stage2 stage3 g g' H0 H1 H. unfold iga_setup in H. rewrite H0 in H.
  destruct (ig_dim g <? 1)%Z eqn:E; [discriminate|]. unfold iga_stage1 in H. cbn [ig_stage ig_dim ig_axes ig_user ig_setup ig_layout] in H.
  rewrite H1 in H. change (1 <=? 0)%Z with false in H. cbv iota in H.
  destruct (stage1 g2 g3 maxint size rank (ig_dim g) (ig_axes g) (ig_user g)) as [st [ly|]] eqn:ES; destruct st; try discriminate.
  cbn [ig_stage ig_dim ig_axes ig_user ig_setup ig_layout] in H.
  destruct (stage2 _); try discriminate. injection H as Hst <-. cbn [ig_stage ig_dim ig_axes ig_user ig_setup ig_layout].
  split; [lia|]. split; [exists ly; auto|]. repeat split; auto.
Qed.
Print Assumptions C38_successful_setup.

Example C38_example :
  exists g', iga_setup exact_g2 exact_g3 (2^31-1)%Z 6 4 (fun _ => Ok) (fun _ => Ok) (mk_iga 2 ex_axes [-1; -1]%Z false 0 None) = (Ok, g') /\
             ig_layout g' = Some (ex_LY 4).
Proof.
  destruct ex_setup_ok as (_ & _ & _ & _ & H). exists (mk_iga 2 ex_axes [-1; -1]%Z true 3 (Some (ex_LY 4))). split; [|reflexivity].
  unfold iga_setup, iga_stage1. cbn [ig_setup ig_dim ig_stage ig_axes ig_user ig_layout].
  rewrite (H 4%Z ltac:(lia)). reflexivity.
Qed.

(** * C39 *)
(** When every call has succeeded the rule is usable: its points and weights are those of its table. *)
Theorem C39_successful_calls_give_tables :
  forall lit ops, Forall2 (fun op s => s = Ok) ops (fst (rule_run lit ops rule_create)) -> (forall op, In op ops -> op_valid op) ->
  let r := snd (rule_run lit ops rule_create) in
  (ru_nqp r = 0%Z /\ ru_point r = None /\ ru_weight r = None) \/
  ((1 <= ru_nqp r)%Z /\ exists X W, ru_point r = Some X /\ ru_weight r = Some W /\
    length X = Z.to_nat (ru_nqp r) /\ length W = Z.to_nat (ru_nqp r) /\
    match ru_type r with
    | RLegendre | RReduced => gauss_legendre lit Ropp (ru_nqp r) = Some (X, W)
    | RLobatto => gauss_lobatto lit Ropp (ru_nqp r) = Some (X, W)
    | RUser => True
    end).
Proof. intros lit ops H Hv r. apply run_usable; auto. left. auto. Qed.
Print Assumptions C39_successful_calls_give_tables.

(** A rule that failed in IGARuleSetUp fails there again. *)
Theorem C39_setup_fails_again :
  forall lit r r', rule_setup lit r = (ErrRange, r') -> rule_setup lit r' = (ErrRange, r').
Proof. exact setup_fails_again. Qed.
Print Assumptions C39_setup_fails_again.

(** But IGARuleSetSize and IGARuleSetType report success the second time, with points and weights that
    are not those of any rule; the basis then integrates every function to zero. *)
Theorem C39_bad_rule_never_silent_refuted :
  exists ops, forall lit, let (st, r) := rule_run lit ops rule_create in
    st = [ErrRange; Ok] /\ ru_type r = RLegendre /\ ru_nqp r = 11%Z /\
    forall maxreal U e f, (0 <= e < 3)%Z ->
    match init_quadrature lit maxreal true 2 7 U [2; 3; 4]%Z r with
    | (Ok, _, Some B) => bq_nqp B = 11%Z /\ quad (bq_point B e) (map (Rmult (bq_detJac B e)) (bq_weight B e)) f = 0
    | _ => False
    end.
Proof.
  exists [OpSetSize 11; OpSetSize 11]. intros lit. cbn. repeat split; auto.
  match goal with |- quad ?X (map ?g ?l) f = 0 => change l with (zeros 11) end.
  rewrite quad_scal_weights, quad_zero. ring.
Qed.
Print Assumptions C39_bad_rule_never_silent_refuted.

Theorem C39_set_type_never_silent_refuted :
  exists ops, forall lit, let (st, r) := rule_run lit ops rule_create in
    st = [Ok; ErrRange; Ok] /\ ru_type r = RLobatto /\ ru_nqp r = 1%Z /\ ru_point r = Some [lit 0%Z] /\ gauss_lobatto lit Ropp 1 = None.
Proof. exists [OpSetSize 1; OpSetType RLobatto; OpSetType RLobatto]. intros lit. cbn. repeat split; auto. Qed.
Print Assumptions C39_set_type_never_silent_refuted.

Example C39_example : forall lit,
  let (st, r) := rule_run lit [OpSetSize 3; OpSetType RLobatto; OpSetUp] rule_create in
  st = [Ok; Ok; Ok] /\ ru_type r = RLobatto /\ gauss_lobatto lit Ropp 3 = Some (pts (ru_point r), pts (ru_weight r)).
Proof. intros lit. cbn. repeat split. Qed.

(** Together: whatever the calls before, if none failed, the standard rules integrate polynomials of degree
    below 2q (Gauss-Legendre) or 2q-2 (Gauss-Lobatto) on every element, q being the size requested, or p+1. *)
Theorem C37_C39_standard_rules_after_any_calls :
  forall lit, rounds lit -> forall ops,
  Forall2 (fun op s => s = Ok) ops (fst (rule_run lit ops rule_create)) -> (forall op, In op ops -> op_valid op) ->
  forall maxreal bspline p m (U : Z -> R) spans r' B,
  nondecreasing (O:=Rord) m U -> (0 <= p)%Z -> (2*p+1 <= m)%Z -> is_element_list (O:=Rord) p m U spans ->
  let r := snd (rule_run lit ops rule_create) in
  init_quadrature lit maxreal bspline p m U spans r = (Ok, r', Some B) ->
  ru_type r = RLegendre \/ ru_type r = RLobatto ->
  let q := if (ru_nqp r =? 0)%Z then (p + 1)%Z else ru_nqp r in
  let d := match ru_type r with RLobatto => Z.to_nat (2*q-2) | _ => Z.to_nat (2*q) end in
  bq_nqp B = q /\ bq_nel B = Z.of_nat (length spans) /\
  forall e, (0 <= e < bq_nel B)%Z ->
     let k := nth (Z.to_nat e) spans 0%Z in let a := U k in let b := U (k+1)%Z in
     length (bq_point B e) = Z.to_nat q /\ length (bq_weight B e) = Z.to_nat q /\
     List.Forall (fun u => a <= u <= b) (bq_point B e) /\ List.Forall (fun w => 0 < w) (bq_weight B e) /\
     forall c, (length c <= d)%nat ->
        let f := fun u => peval c ((u - a) / ((b - a) / 2) - 1) in
        Rabs (quad (bq_point B e) (map (Rmult ((b - a) / 2)) (bq_weight B e)) f - RInt f a b) <= (b - a) / 2 * / 10^13 * pnorm c.
Proof.
  intros lit HR ops H Hv maxreal bs p m U spans r' B Hnd Hp Hm HE r HQ HT q d.
  assert (HU : usable lit r) by (apply run_usable; auto; left; auto).
  assert (K : usable lit r' /\ ru_nqp r' = q /\ (1 <= q)%Z /\ ru_type r' = ru_type r).
  { unfold init_quadrature in HQ. destruct (if (ru_nqp r <? 1)%Z then rule_set_size lit (p+1) r else (Ok, r)) as [s r1] eqn:E1.
    destruct s; try discriminate. destruct (negb bs && _); [discriminate|].
    assert (K : usable lit r1 /\ ru_nqp r1 = q /\ (1 <= q)%Z /\ ru_type r1 = ru_type r).
    { unfold q. destruct (ru_nqp r <? 1)%Z eqn:E.
      - apply set_size_usable in E1; auto. destruct E1 as (A & B' & C). split; auto.
        replace (ru_nqp r =? 0)%Z with true. { split; auto. split; auto. lia. }
        destruct HU as [(-> & _)|(HU & _)]; auto; lia.
      - injection E1 as <-. replace (ru_nqp r =? 0)%Z with false by lia. split; auto. split; auto. split; auto. lia. }
    destruct K as (K1 & K2 & K3 & K4). rewrite K4 in HQ.
    replace (negb (rtype_eqb (ru_type r) RReduced)) with true in HQ by (destruct HT as [-> | ->]; reflexivity).
    injection HQ as <- _. auto. }
  destruct K as (HU' & Hq & Hq1 & HT').
  destruct HU' as [(Q & _)|(_ & X & W & Q1 & Q2 & L1 & L2 & Q3)]; [lia|].
  assert (G : List.Forall (fun x => -1 <= x <= 1) X /\ List.Forall (fun w => 0 < w) W /\ integrates d (/ 10^13) (-1) 1 X W).
  { unfold d. rewrite HT' in Q3. rewrite Hq in Q3. destruct HT as [T | T]; rewrite T in *.
    - assert (Hr : (1 <= q <= 10)%Z).
      { destruct (Z_le_dec q 10); [lia|]. rewrite legendre_none in Q3 by lia. discriminate. }
      destruct (legendre_good lit q HR Hr) as (X' & W' & G1 & _ & _ & G2 & G3 & _ & _ & G4). rewrite G1 in Q3. injection Q3 as -> ->. auto.
    - assert (Hr : (2 <= q <= 10)%Z).
      { destruct (Z_le_dec q 10); [destruct (Z_le_dec 2 q); [lia|]|]; rewrite lobatto_none in Q3 by lia; discriminate. }
      destruct (lobatto_good lit q HR Hr) as (X' & W' & G1 & _ & _ & G2 & G3 & _ & _ & G4). rewrite G1 in Q3. injection Q3 as -> ->. auto. }
  destruct G as (G1 & G2 & G3).
  destruct (C37_element_quadrature lit maxreal bs p m U spans r r' B X W d (/ 10^13) Hnd Hp Hm HE HQ) as (E1 & E2 & E3 & _); auto.
  { rewrite HT'. destruct HT as [-> | ->]; discriminate. }
  rewrite Hq in E1. split; auto. split; auto. intros e He. destruct (E3 e He) as (F1 & F2 & F3 & F4 & F5 & F6 & _).
  intros k a b. fold k a b in F1, F2, F5, F6. rewrite E1 in F3. split; auto. rewrite F4 in *. split; [rewrite L2, Hq; auto|]. split; auto. split; auto.
  intros c Hc. pose proof (F6 c Hc) as F7. rewrite F2 in F7. exact F7.
Qed.
Print Assumptions C37_C39_standard_rules_after_any_calls.

(** * C40 *)
Theorem C40_setup_is_idempotent_partial :
  forall lit maxreal bspline p m U spans r r' B, usable lit r -> (0 <= p)%Z ->
  (ru_type r <> RReduced \/ (Z.of_nat (length spans) <= 2)%Z) ->
  init_quadrature lit maxreal bspline p m U spans r = (Ok, r', Some B) ->
  init_quadrature lit maxreal bspline p m U spans r' = (Ok, r', Some B) /\
  clone_quadrature lit maxreal bspline p m U spans r' = (Ok, r', Some B).
Proof.
  intros lit maxreal bs p m U spans r r' B Hu Hp Hc H. pose proof (init_idem lit maxreal _ _ _ _ _ _ _ _ H Hu Hp Hc) as K. split; [exact K|].
  unfold clone_quadrature. replace (rule_copy r') with r'; [exact K|].
  unfold rule_copy. destruct (0 <? ru_nqp r')%Z eqn:E; [destruct r'; reflexivity|]. exfalso.
  unfold init_quadrature in H. destruct (if (ru_nqp r <? 1)%Z then rule_set_size lit (p+1) r else (Ok, r)) as [s r1] eqn:E1.
  destruct s; try discriminate. destruct (negb bs && _); [discriminate|].
  assert (N : (1 <= ru_nqp r1)%Z).
  { destruct (ru_nqp r <? 1)%Z eqn:E2; [apply set_size_usable in E1; auto; destruct E1 as (_ & -> & _); lia|injection E1 as <-; lia]. }
  destruct (negb (rtype_eqb (ru_type r1) RReduced)) eqn:ET; [injection H as -> _; lia|].
  destruct ((2 <? Z.of_nat (length spans))%Z && (1 <? ru_nqp r1)%Z) eqn:E3.
  - destruct (rule_set_size lit (ru_nqp r1 - 1) r1) as [s2 r2] eqn:E2. destruct s2; try discriminate. injection H as -> _.
    unfold rule_set_size in E2. destruct (ru_nqp r1 - 1 <? 1)%Z eqn:E4; [lia|]. destruct (ru_nqp r1 =? ru_nqp r1 - 1)%Z eqn:E5; [lia|].
    apply setup_usable in E2; cbn; try discriminate. destruct E2 as (_ & E2 & _). cbn in E2. lia.
  - injection H as -> _. lia.
Qed.
Print Assumptions C40_setup_is_idempotent_partial.

(** With IGA_RULE_REDUCED and three or more elements each initialisation, hence each IGAClone, has one
    quadrature point less than the one before. *)
Theorem C40_setup_is_idempotent_refuted :
  exists p m spans r, forall lit maxreal U, usable lit (r lit) /\
    match init_quadrature lit maxreal true p m U spans (r lit) with
    | (Ok, r', Some B) =>
        bq_nqp B = 3%Z /\
        match clone_quadrature lit maxreal true p m U spans r' with
        | (Ok, _, Some B') => bq_nqp B' = 2%Z
        | _ => False
        end
    | _ => False
    end.
Proof.
  exists 2%Z, 7%Z, [2; 3; 4]%Z, (fun lit => mk_rule RReduced 0 None None). intros lit maxreal U. split; [left; auto|].
  cbn. split; reflexivity.
Qed.
Print Assumptions C40_setup_is_idempotent_refuted.
