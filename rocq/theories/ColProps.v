(** C102: the tables of the collocation method. *)
From Coq Require Import ZArith List Bool Lia Reals Lra.
From Coq Require Import ZifyBool ZifyNat.
From Coquelicot Require Import Coquelicot.
From Verif Require Import Prelude RealOrd AxisModel AxisSpec AxisInitModel AxisProofs PartModel SetupModel SetupProofs SetupProps CollocProofs GridSpec GridProofs ElemModel AsmProofs RuleModel RuleProps BasModel BasSpec BasProofs BasProofs3 BasProps
  TabModel ColModel ColSpec ColProofs.
From Verif Require Import ElemSpec Box.
Import ListNotations.
Open Scope Z_scope.

Lemma abscissa_eq p U c : 1 <= p -> greville c p U = greville_abscissa p U c.
Proof.
  intros Hp. rewrite greville_eq by auto. unfold greville_abscissa. f_equal.
  assert (K : forall k, 0 <= k -> wsum (fun j => U (c + j + 1)) k = rsum (fun j => U (c + j)) (zseq 1 k)).
  { intros k Hk. pattern k. apply natlike_ind; [reflexivity| |exact Hk]. intros x Hx IH. unfold Z.succ.
    rewrite wsum_S, IH by auto. rewrite (zseq_snoc 1 x) by lia. rewrite rsum_app. f_equal.
    unfold rsum. cbn [map fold_right]. rewrite Rplus_0_r. f_equal. lia. }
  apply K. lia.
Qed.
Lemma col_point_eq p m U nnp i : 1 <= p -> col_point p m U nnp i = greville_abscissa p U (i + images p m nnp).
Proof. intros Hp. unfold col_point. rewrite abscissa_eq by auto. f_equal. unfold col_shift, images. f_equal. f_equal. lia. Qed.

Section Table.
  Variables (ndu0 a0 ders0 : Z -> Z -> R) (l0 r0 : Z -> R).
  Let CB := fun k u p d U => basis_bspline k u p d U ndu0 a0 ders0 l0 r0.

(** The table of an axis with nnp nodes, nnp <= m-p: nodes take the role of elements, with one point each of weight and
    Jacobian one; the point of node i is the Greville abscissa of its function, and these increase strictly.  If the
    point lies in the domain, the functions listed are those of a nonempty knot span that contains it; their values are
    those of the B-splines (at the end of the domain the limits from the left), the others vanish, the derivatives are
    those of the polynomial pieces, and the node's own function is listed and is positive. *)
Theorem C102_tables : forall p m (U : Z -> R) nnp T,
  valid_knots (O:=Rord) p m U -> ends_nonempty (O:=Rord) p m U -> 0 <= images p m nnp -> nnp - 1 + images p m nnp <= m - p - 1 ->
  init_collocation CB true p m U nnp = (Ok, Some T) ->
  let Q := bt_q T in let s := images p m nnp in
  bq_nel Q = nnp /\ bq_nqp Q = 1 /\ bq_nen Q = p + 1 /\
  forall i, 0 <= i < nnp ->
  let u := greville_abscissa p U (i + s) in
  bq_point Q i = [u] /\ bq_weight Q i = [1%R] /\ bq_detJac Q i = 1%R /\
  (forall j, i < j < nnp -> (u < greville_abscissa p U (j + s))%R) /\
  (in_domain p m U u -> exists k, is_element (O:=Rord) p m U k /\ bq_offset Q i + s = k - p /\
     ((U k <= u < U (k+1)%Z)%R \/ u = U (k+1) /\ k = m - p - 1) /\
     (forall a, 0 <= a <= p ->
        ((u < U (k+1)%Z)%R -> bt_value T i 0 0 a = bspline U (Z.to_nat p) (bq_offset Q i + s + a) u) /\
        (u = U (k+1) -> filterlim (bspline U (Z.to_nat p) (bq_offset Q i + s + a)) (at_left u) (locally (bt_value T i 0 0 a))) /\
        forall o, 0 <= o <= 4 -> is_derive_n (bspline_piece U k (Z.to_nat p) (bq_offset Q i + s + a)) (Z.to_nat o) u (bt_value T i 0 o a)) /\
     ((u < U (k+1)%Z)%R -> forall c, 0 <= c < m - p -> (c < bq_offset Q i + s \/ bq_offset Q i + s + p < c) -> bspline U (Z.to_nat p) c u = 0%R) /\
     rsum (fun a => bt_value T i 0 0 a) (zseq 0 (p+1)) = 1%R /\
     0 <= i - bq_offset Q i <= p /\ (0 < bt_value T i 0 0 (i - bq_offset Q i))%R).
Proof.
  intros p m U nnp T HV He Hs0 Hs1 HT Q s. pose proof HV as (Hp & Hm & Hnd & Hcnt).
  unfold init_collocation in HT. cbn [negb] in HT. injection HT as HT. unfold Q. rewrite <- HT. cbn [bt_q bt_value bq_nel bq_nqp bq_nen bq_point bq_weight bq_detJac bq_offset].
  split; [reflexivity|]. split; [reflexivity|]. split; [reflexivity|]. intros i Hi; set (u := greville_abscissa p U (i + s)).
  assert (Eu : col_point p m U nnp i = u) by (apply col_point_eq; auto).
  assert (Es : col_shift p m nnp = s) by (unfold col_shift, s, images; f_equal; lia).
  rewrite Eu, Es. split; [reflexivity|]. split; [reflexivity|]. split; [reflexivity|]. split.
  { intros j Hj. unfold u. rewrite <- !abscissa_eq by auto. apply (greville_strict p m U HV); lia. }
  intros Hd. set (k := col_span p m U nnp i).
  assert (Ek : k = span_of p m U (greville (i + s) p U)).
  { unfold k, col_span. f_equal. unfold col_point. rewrite Es. reflexivity. }
  assert (Eg : greville (i + s) p U = u) by (unfold u; apply abscissa_eq; auto).
  destruct (span_of_domain p m U HV u He Hd) as (K1 & K2 & K3). rewrite <- Eg, <- Ek in K1, K2, K3. rewrite Eg in K3.
  assert (K4 : ((U k <= u < U (k+1)%Z)%R \/ u = U (k+1) /\ k = m - p - 1)).
  { destruct K3 as [K3|[K3 K3']]; [left; auto|right]. rewrite K3' in *. split; auto. rewrite K3. f_equal. lia. }
  exists k. split; [split; [auto|apply klt_R; auto]|]. replace (k - p - s + s) with (k - p) by lia. split; [reflexivity|]. split; [exact K4|].
  unfold CB.
  destruct (C30_values_are_bsplines p m U k u (Z.min p 4) ndu0 a0 ders0 l0 r0 Hnd ltac:(lia) K1 K2 ltac:(lia)) as (V1 & V2 & V3 & V4). cbv zeta in *.
  split; [|split; [|split; [exact V4|]]].
  - intros a Ha. split; [|split].
    + intros L. apply V1; [|lia]. destruct K4 as [?|[? ?]]; lra.
    + intros L. apply V2; auto.
    + intros o Ho. apply (C31_derivatives p m U k u ndu0 a0 ders0 l0 r0 Hnd ltac:(lia) K1 K2 o Ho); auto.
  - intros L c Hc Hc'. apply V1; [destruct K4 as [?|[? ?]]; lra|lia|lia].
  - destruct (own_positive p m U HV (i + s) He ltac:(lia)) as [O1 O2]; [rewrite Eg; exact Hd|]. cbv zeta in O1, O2. rewrite <- Ek in O1, O2.
    split; [lia|]. replace (i - (k - p - s)) with (i + s - (k - p)) by lia.
    destruct (C31_derivatives p m U k u ndu0 a0 ders0 l0 r0 Hnd ltac:(lia) K1 K2 0 ltac:(lia)) as [D _].
    specialize (D (i + s - (k - p)) ltac:(lia)). cbv zeta in D. cbn [Z.to_nat is_derive_n] in D.
    rewrite <- D. replace (k - p + (i + s - (k - p))) with (i + s) by lia. rewrite <- Eg. exact O2.
Qed.

(** On a non-periodic axis whose knot vector is open at both ends every point lies in the domain, the first and the last at its ends, and
    there only the node's own function does not vanish; the tables of the faces are the same. *)
Theorem C102_open : forall p m (U : Z -> R) T,
  valid_knots (O:=Rord) p m U -> ends_nonempty (O:=Rord) p m U -> U 1 = U p -> U (m-p) = U (m-1) ->
  init_collocation CB true p m U (m-p) = (Ok, Some T) ->
  (forall i, 0 <= i < m - p -> in_domain p m U (greville_abscissa p U i)) /\
  bq_point (bt_q T) 0 = [U p] /\ bq_point (bt_q T) (m-p-1) = [U (m-p)] /\
  bq_offset (bt_q T) 0 = 0 /\ bq_offset (bt_q T) (m-p-1) = m - p - 1 - p /\
  (forall a, 0 <= a <= p -> bt_value T 0 0 0 a = (if a =? 0 then 1 else 0)%R) /\
  (forall a, 0 <= a <= p -> bt_value T (m-p-1) 0 0 a = (if a =? p then 1 else 0)%R) /\
  bt_bnd_value T 0 = bt_value T 0 0 /\ bt_bnd_value T 1 = bt_value T (m-p-1) 0.
Proof.
  intros p m U T HV He HU1 HU2 HT. pose proof HV as (Hp & Hm & Hnd & Hcnt).
  pose proof (U_mono p m U HV) as HM.
  assert (HP : (0 < IZR p)%R) by (apply (IZR_lt 0); lia).
  assert (G0 : greville 0 p U = U p).
  { pose proof (greville_bounds p m U HV 0 ltac:(lia) ltac:(lia)) as [B1 B2].
    change (U 1%Z <= greville 0 p U)%R in B1. change (greville 0 p U <= U p)%R in B2. rewrite HU1 in B1. lra. }
  assert (G1 : greville (m-p-1) p U = U (m-p)).
  { pose proof (greville_bounds p m U HV (m-p-1) ltac:(lia) ltac:(lia)) as [B1 B2].
    replace (m-p-1+1) with (m-p) in B1 by lia. replace (m-p-1+p) with (m-1) in B2 by lia. rewrite <- HU2 in B2. lra. }
  assert (HD : forall i, 0 <= i < m - p -> in_domain p m U (greville_abscissa p U i)).
  { intros i Hi. rewrite <- abscissa_eq by auto. unfold in_domain.
    pose proof (greville_mono p m U HV 0 i ltac:(lia) ltac:(lia) ltac:(lia)).
    pose proof (greville_mono p m U HV i (m-p-1) ltac:(lia) ltac:(lia) ltac:(lia)). rewrite G0 in *. rewrite G1 in *. lra. }
  split; [exact HD|].
  assert (Es : col_shift p m (m-p) = 0) by (unfold col_shift; replace (m - p - 1 + 1 - (m-p)) with 0 by lia; reflexivity).
  unfold init_collocation in HT. cbn [negb] in HT. injection HT as HT. rewrite <- HT. cbn [bt_q bt_value bt_bnd_value bq_nel bq_nqp bq_nen bq_point bq_weight bq_detJac bq_offset].
  assert (P0 : col_point p m U (m-p) 0 = U p) by (unfold col_point; rewrite Es; exact G0).
  assert (P1 : col_point p m U (m-p) (m-p-1) = U (m-p)) by (unfold col_point; rewrite Es, Z.add_0_r; exact G1).
  assert (HUU : (U p < U (m-p)%Z)%R).
  { destruct He as [E1 _]. apply (proj1 (klt_R _ _)) in E1. pose proof (HM (p+1) (m-p) ltac:(lia) ltac:(lia) ltac:(lia)). lra. }
  assert (S0 : col_span p m U (m-p) 0 = p).
  { unfold col_span. rewrite P0. destruct (find_span_cases p m U HV _ _ (span_of_some p m U HV (U p))) as [B C]. unfold span_of, find_span.
    replace (kltb (U p) (U p)) with false; [reflexivity|]. symmetry. apply Rltb_irrefl. }
  assert (S1 : col_span p m U (m-p) (m-p-1) = m-p-1).
  { unfold col_span. rewrite P1. unfold span_of, find_span.
    replace (kltb (U p) (U (m-p))) with true by (symmetry; apply Rltb_true; auto). cbn [negb].
    replace (m-p-1+1) with (m-p) by lia. replace (kltb (U (m-p)) (U (m-p))) with false by (symmetry; apply Rltb_irrefl). reflexivity. }
  rewrite P0, P1, S0, S1, Es. replace (m-p-1+1) with (m-p) by lia. cbn [Z.eqb].
  split; [reflexivity|]. split; [reflexivity|]. split; [lia|]. split; [lia|].
  destruct (C65_boundary_values p m U ndu0 a0 ders0 l0 r0 Hnd ltac:(lia) Hm He) as (_ & Z0 & Z1). cbv zeta in Z0, Z1.
  specialize (Z0 HU1). specialize (Z1 HU2). unfold bnd_values in Z0, Z1.
  destruct He as [E1 E2]. apply (proj1 (klt_R _ _)) in E1. apply (proj1 (klt_R _ _)) in E2.
  assert (E2' : (U (m-p-1)%Z < U (m-p-1+1)%Z)%R) by (replace (m-p-1+1) with (m-p) by lia; exact E2).
  destruct (C30_values_are_bsplines p m U p (U p) (Z.min p 4) ndu0 a0 ders0 l0 r0 Hnd ltac:(lia) ltac:(lia) E1 ltac:(lia)) as (_ & _ & _ & U0).
  destruct (C30_values_are_bsplines p m U (m-p-1) (U (m-p)) (Z.min p 4) ndu0 a0 ders0 l0 r0 Hnd ltac:(lia) ltac:(lia) E2' ltac:(lia)) as (_ & _ & _ & U1).
  cbv zeta in U0, U1. unfold CB.
  split; [|split; [|split; reflexivity]].
  - assert (A : forall a, 1 <= a <= p -> basis_bspline p (U p) p (Z.min p 4) U ndu0 a0 ders0 l0 r0 0 a = 0%R) by exact Z0.
    intros a Ha. destruct (a =? 0) eqn:Ea; [|apply A; lia]. replace a with 0 by lia.
    rewrite (rsum_single _ _ _ 0 (NoDup_zseq _ _)) in U0; [exact U0|apply in_zseq; lia|].
    intros b Hb Hne. apply in_zseq in Hb. apply A. lia.
  - assert (A : forall a, 0 <= a < p -> basis_bspline (m-p-1) (U (m-p)) p (Z.min p 4) U ndu0 a0 ders0 l0 r0 0 a = 0%R).
    { intros a Ha. generalize (Z1 a Ha). replace (m-p-1+1) with (m-p) by lia. auto. }
    intros a Ha. destruct (a =? p) eqn:Ea; [|apply A; lia]. replace a with p by lia.
    rewrite (rsum_single _ _ _ p (NoDup_zseq _ _)) in U1; [exact U1|apply in_zseq; lia|].
    intros b Hb Hne. apply in_zseq in Hb. apply A. lia.
Qed.
End Table.
Print Assumptions C102_tables.
Print Assumptions C102_open.

Lemma greville_uniform p (U : Z -> R) a h c : 1 <= p -> (forall j, c + 1 <= j <= c + p -> U j = (a + IZR j * h)%R) ->
  greville c p U = (a + (IZR c + (IZR p + 1) / 2) * h)%R.
Proof.
  intros Hp HU. rewrite greville_eq by auto.
  assert (K : forall k, 0 <= k -> k <= p -> (wsum (fun j => U (c + j + 1)%Z) k = IZR k * (a + IZR c * h) + h * (IZR k * (IZR k + 1) / 2))%R).
  { intros k Hk. pattern k. apply natlike_ind; [intros _; rewrite wsum_0; lra| |exact Hk]. intros x Hx IH Hxp. unfold Z.succ in *.
    rewrite wsum_S, IH by lia. rewrite HU by lia. rewrite !plus_IZR. lra. }
  rewrite K by lia. assert ((0 < IZR p)%R) by (apply (IZR_lt 0); lia). field. lra.
Qed.

(** On a periodic axis with uniform knots every point lies in the domain. *)
Theorem C102_uniform_periodic : forall (A : axis Rord) a h, axis_ready A -> ax_periodic A = true -> (0 < h)%R ->
  (forall j, 0 <= j <= ax_m A -> ax_U A j = (a + IZR j * h)%R) ->
  forall i, 0 <= i < ax_nnp A -> in_domain (ax_p A) (ax_m A) (ax_U A) (greville_abscissa (ax_p A) (ax_U A) (i + images (ax_p A) (ax_m A) (ax_nnp A))).
Proof.
  intros A a h (l & _ & ((Hp & Hm & _) & _ & _ & Hn)) Hper Hh HU i Hi. set (p := ax_p A) in *. set (m := ax_m A) in *. set (U := ax_U A) in *.
  rewrite Hper in Hn.
  assert (HC : count_eq (O:=Rord) U (m-p) (m-1) (U (m-p)) = 1).
  { unfold count_eq. replace (zseq (m-p) (m-1-(m-p)+1)) with ((m-p) :: zseq (m-p+1) (p-1)).
    2:{ replace (m-1-(m-p)+1) with p by lia. rewrite (zseq_cons (m-p) p) by lia. reflexivity. }
    cbn [filter]. replace (keqb (U (m-p)) (U (m-p))) with true by (symmetry; apply keqb_spec, keq_R; reflexivity).
    assert (E : forall n, filter (fun i0 => keqb (O:=Rord) (U i0) (U (m-p))) n = [] \/ exists x, In x n /\ U x = U (m-p)).
    { intros n. induction n as [|x n IH]; [left; reflexivity|]. cbn [filter]. destruct (keqb (O:=Rord) (U x) (U (m-p))) eqn:E.
      - right. exists x. split; [left; auto|]. apply keqb_spec, keq_R in E. exact E.
      - destruct IH as [IH|(y & Hy & Ey)]; [left; auto|right; exists y; split; [right; auto|auto]]. }
    destruct (E (zseq (m-p+1) (p-1))) as [->|(x & Hx & Ex)]; [reflexivity|]. exfalso. apply in_zseq in Hx.
    rewrite !HU in Ex by lia. assert (IZR x = IZR (m-p)) by nra. apply eq_IZR in H. lia. }
  rewrite HC in Hn. assert (Hn' : ax_nnp A = m - p - p) by lia.
  rewrite <- abscissa_eq by auto. unfold images. rewrite Hn'. replace (m - p - (m - p - p)) with p by lia.
  pose proof (Z.div_mod p 2 ltac:(lia)) as D. pose proof (Z.mod_pos_bound p 2 ltac:(lia)) as D'.
  set (s := p / 2) in *. set (t := p mod 2) in *. clearbody s t.
  rewrite (greville_uniform p U a h) by (auto; intros; apply HU; lia).
  unfold in_domain. rewrite !HU by lia. rewrite minus_IZR, plus_IZR.
  assert (P1 : (0 <= IZR i)%R) by (apply (IZR_le 0); lia).
  assert (P2 : (IZR i + 2 * IZR p + 1 <= IZR m)%R) by (rewrite <- mult_IZR, <- !plus_IZR; apply IZR_le; lia).
  assert (P3 : (IZR p = 2 * IZR s + IZR t)%R) by (rewrite <- mult_IZR, <- plus_IZR; f_equal; lia).
  assert (P4 : (0 <= IZR t <= 1)%R) by (split; apply IZR_le; lia).
  split; apply Rplus_le_compat_l; apply Rmult_le_compat_r; lra.
Qed.
Print Assumptions C102_uniform_periodic.

(** With other periodic knots it need not: cubics over the breaks 0, 1, 2, 3, 6 repeated.  The point of node 0 is -2/3,
    and the table holds a negative value. *)
Definition np_knots (j : Z) : R := match j with
  | 0 => -5 | 1 => -4 | 2 => -3 | 3 => 0 | 4 => 1 | 5 => 2 | 6 => 3 | 7 => 6 | 8 => 7 | 9 => 8 | _ => 9 end%R.
Definition np_axis : axis Rord := mk_axis (O:=Rord) true 3 10 np_knots 4 4 (Some [3; 4; 5; 6]).
Lemma np_lt i j : 0 <= i -> i < j -> j <= 10 -> (np_knots i < np_knots j)%R.
Proof.
  intros Hi Hij Hj.
  assert (Ei : i = 0 \/ i = 1 \/ i = 2 \/ i = 3 \/ i = 4 \/ i = 5 \/ i = 6 \/ i = 7 \/ i = 8 \/ i = 9) by lia.
  assert (Ej : j = 1 \/ j = 2 \/ j = 3 \/ j = 4 \/ j = 5 \/ j = 6 \/ j = 7 \/ j = 8 \/ j = 9 \/ j = 10) by lia.
  repeat (destruct Ei as [ -> |Ei]); [..|subst i]; repeat (destruct Ej as [ -> |Ej]); try (subst j); try lia; cbn; lra.
Qed.
Lemma np_count lo hi v : 0 <= lo -> hi <= 10 -> 0 <= count_eq (O:=Rord) np_knots lo hi v <= 1.
Proof.
  intros Hlo Hhi. unfold count_eq. generalize (NoDup_zseq lo (hi-lo+1)). assert (H : forall x, In x (zseq lo (hi-lo+1)) -> 0 <= x <= 10) by (intros x Hx; apply in_zseq in Hx; lia).
  revert H. generalize (zseq lo (hi-lo+1)) as l. intros l H ND. split; [lia|].
  assert (K : forall l, (forall x, In x l -> 0 <= x <= 10) -> NoDup l -> forall y, In y l -> keqb (O:=Rord) (np_knots y) v = true ->
    filter (fun i => keqb (O:=Rord) (np_knots i) v) l = [y]).
  { clear. induction l as [|x l IH]; intros H ND y Hy Ey; [destruct Hy|]. inversion ND as [|? ? Nx NDl]; subst. cbn [filter].
    assert (Inj : forall z, 0 <= z <= 10 -> 0 <= y <= 10 -> keqb (O:=Rord) (np_knots z) v = true -> z = y).
    { intros z Hz Hy0 Ez. apply keqb_spec, keq_R in Ez, Ey. destruct (Z.lt_total z y) as [L|[L|L]]; auto; exfalso.
      - pose proof (np_lt z y ltac:(lia) L ltac:(lia)). cbn in *; lra.
      - pose proof (np_lt y z ltac:(lia) L ltac:(lia)). cbn in *; lra. }
    destruct (keqb (O:=Rord) (np_knots x) v) eqn:Ex.
    - assert (x = y) by (apply Inj; [apply H; left; auto|apply H; auto|auto]). subst x. f_equal.
      destruct (filter (fun i => keqb (O:=Rord) (np_knots i) v) l) as [|z l'] eqn:E; auto. exfalso.
      assert (Hz : In z (z :: l')) by (left; auto). rewrite <- E in Hz. apply filter_In in Hz. destruct Hz as [Hz Ez].
      assert (z = y) by (apply Inj; [apply H; right; auto|apply H; auto|auto]). subst z. auto.
    - destruct Hy as [->|Hy]; [congruence|]. apply IH; auto. intros; apply H; right; auto. }
  destruct (filter (fun i => keqb (O:=Rord) (np_knots i) v) l) as [|y l'] eqn:E; [cbn; lia|].
  assert (Hy : In y (y :: l')) by (left; auto). rewrite <- E in Hy. apply filter_In in Hy. destruct Hy as [Hy Ey].
  rewrite (K l H ND y Hy Ey) in E. rewrite <- E. cbn. lia.
Qed.
Lemma np_valid : valid_knots (O:=Rord) 3 10 np_knots.
Proof.
  split; [lia|]. split; [lia|]. split.
  - intros i j Hi Hij Hj. apply kle_R. destruct (Z.eq_dec i j) as [->|D]; [apply Rle_refl|]. left. apply np_lt; lia.
  - intros v. pose proof (np_count 1 (10-1) v ltac:(lia) ltac:(lia)). lia.
Qed.
Lemma np_ready : axis_ready np_axis.
Proof.
  exists [3; 4; 5; 6]. split; [reflexivity|]. split; [exact np_valid|]. split; [|split; [reflexivity|]].
  - split; [|repeat constructor; lia]. intros k. unfold is_element. rewrite klt_R. cbn [np_axis ax_p ax_m ax_U]. split.
    + intros H. cbn [In] in H. split; [lia|]. apply np_lt; lia.
    + intros [H _]. cbn [In]. lia.
  - cbn [np_axis ax_periodic ax_nnp ax_p ax_m ax_U].
    assert (E : count_eq (O:=Rord) np_knots (10-3) (10-1) (np_knots (10-3)) = 1).
    { pose proof (np_count (10-3) (10-1) (np_knots (10-3)) ltac:(lia) ltac:(lia)) as B.
      assert (0 < count_eq (O:=Rord) np_knots (10-3) (10-1) (np_knots (10-3))); [|lia].
      unfold count_eq. change (zseq (10-3) (10-1-(10-3)+1)) with [7; 8; 9]. cbn [filter]. change (10-3) with 7.
      replace (keqb (np_knots 7) (np_knots 7)) with true by (symmetry; apply keqb_spec, keq_R; reflexivity). cbn [length]. lia. }
    rewrite E. reflexivity.
Qed.
Theorem C102_point_outside_refuted : exists A : axis Rord, axis_ready A /\ ends_nonempty (O:=Rord) (ax_p A) (ax_m A) (ax_U A) /\
  forall ndu0 a0 ders0 l0 r0, let CB := fun k u p d U => basis_bspline k u p d U ndu0 a0 ders0 l0 r0 in
  exists T u, init_collocation CB true (ax_p A) (ax_m A) (ax_U A) (ax_nnp A) = (Ok, Some T) /\
    bq_point (bt_q T) 0 = [u] /\ ~ in_domain (ax_p A) (ax_m A) (ax_U A) u /\ (bt_value T 0 0 0 3 < 0)%R.
Proof.
  exists np_axis. split; [exact np_ready|]. split; [split; apply klt_R; apply np_lt; cbn; lia|].
  intros ndu0 a0 ders0 l0 r0 CB. unfold init_collocation. cbn [negb np_axis ax_p ax_m ax_U ax_nnp].
  eexists. exists (-2/3)%R. split; [reflexivity|]. cbn [bt_q bt_value bq_point].
  assert (E : col_point 3 10 np_knots 4 0 = (-2/3)%R).
  { rewrite col_point_eq by lia. unfold greville_abscissa. change (images 3 10 4) with 1. change (zseq 1 3) with [1; 2; 3].
    unfold rsum. cbn [map fold_right]. change (0 + 1 + 1) with 2. change (0 + 1 + 2) with 3. change (0 + 1 + 3) with 4. cbn [np_knots]. lra. }
  rewrite E. split; [reflexivity|]. split; [unfold in_domain; cbn [np_knots]; lra|].
  assert (K : col_span 3 10 np_knots 4 0 = 3).
  { unfold col_span. rewrite E. unfold span_of, find_span.
    replace (kltb (np_knots 3) (-2/3)%R) with false; [reflexivity|]. symmetry. apply Rltb_false. cbn [np_knots]. lra. }
  rewrite K. unfold CB. destruct np_valid as (_ & _ & Hnd & _).
  destruct (C31_derivatives 3 10 np_knots 3 (-2/3)%R ndu0 a0 ders0 l0 r0 Hnd ltac:(lia) ltac:(lia) (np_lt 3 4 ltac:(lia) ltac:(lia) ltac:(lia)) 0 ltac:(lia)) as [D _].
  specialize (D 3 ltac:(lia)). cbv zeta in D. change (Z.to_nat 0) with 0%nat in D. cbn [is_derive_n] in D. change (Z.min 3 4) with 3 in *. rewrite <- D.
  change (Z.to_nat 3) with 3%nat. change (3 - 3 + 3) with 3.
  rewrite (piece_S np_knots 3 2 3), (piece_S np_knots 3 1 3), (piece_S np_knots 3 0 3).
  rewrite !(piece_zero np_knots 3 _ (3+1)) by lia. rewrite !Rmult_0_r, !frac_0.
  change (bspline_piece np_knots 3 0 3 (-2/3)) with 1%R. cbn [np_knots Z.of_nat Z.add Pos.add Pos.of_succ_nat Pos.succ].
  change (np_knots (3 + Z.of_nat 3)) with 3%R. change (np_knots (3 + Z.of_nat 2)) with 2%R. change (np_knots (3 + Z.of_nat 1)) with 1%R.
  unfold frac. repeat (destruct (Req_EM_T _ 0); [lra|]). lra.
Qed.
Print Assumptions C102_point_outside_refuted.

(** Quadratics over 0, 1, 4, 5 (five functions): the point of node 2 is 5/2, on the second element, with the functions 1, 2 and 3. *)
Example C102_example : forall ndu0 a0 ders0 l0 r0, let CB := fun k u p d U => basis_bspline k u p d U ndu0 a0 ders0 l0 r0 in
  valid_knots (O:=Rord) 2 7 ex_knots /\ ends_nonempty (O:=Rord) 2 7 ex_knots /\ ex_knots 1 = ex_knots 2 /\ ex_knots (7-2) = ex_knots (7-1) /\
  exists T, init_collocation CB true 2 7 ex_knots 5 = (Ok, Some T) /\ bq_point (bt_q T) 2 = [(5/2)%R] /\ bq_offset (bt_q T) 2 = 1.
Proof.
  intros ndu0 a0 ders0 l0 r0 CB. destruct ex_rsetup_ok as (_ & _ & _ & HA & _). destruct (HA 0 ltac:(lia)) as [(l & _ & (HV & _)) He].
  cbn [ex_raxes ax_p ax_m ax_U] in HV, He. split; [exact HV|]. split; [exact He|]. split; [reflexivity|]. split; [reflexivity|].
  unfold init_collocation. cbn [negb]. eexists. split; [reflexivity|]. cbn [bt_q bq_point bq_offset].
  assert (E : col_point 2 7 ex_knots 5 2 = (5/2)%R).
  { rewrite col_point_eq by lia. unfold greville_abscissa. change (images 2 7 5) with 0. change (zseq 1 2) with [1; 2].
    unfold rsum. cbn [map fold_right]. change (2 + 0 + 1) with 3. change (2 + 0 + 2) with 4. change (ex_knots 3) with 1%R. change (ex_knots 4) with 4%R. lra. }
  rewrite E. split; [reflexivity|]. change (col_shift 2 7 5) with 0.
  assert (K : col_span 2 7 ex_knots 5 2 = 3).
  { unfold col_span. rewrite E. pose proof HV as (Hp & Hm & Hnd & _).
    destruct (span_of_domain 2 7 ex_knots HV (5/2)%R He) as (K1 & K2 & K3).
    { change (ex_knots 2) with 0%R. change (ex_knots (7-2)) with 5%R. lra. }
    assert (Ek : span_of 2 7 ex_knots (5/2)%R = 2 \/ span_of 2 7 ex_knots (5/2)%R = 3 \/ span_of 2 7 ex_knots (5/2)%R = 4) by lia.
    destruct Ek as [Ek|[Ek|Ek]]; auto; exfalso; rewrite Ek in K3.
    - change (ex_knots (2+1)) with 1%R in K3. destruct K3 as [K3|[_ K3]]; [lra|lia].
    - change (ex_knots 4) with 4%R in K3. destruct K3 as [K3|[K3 _]]; [lra|]. change (ex_knots (7-2)) with 5%R in K3. lra. }
  rewrite K. reflexivity.
Qed.
