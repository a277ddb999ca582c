(** C32, C66, C67: the nodal bases IGA_BASIS_LAGRANGE and IGA_BASIS_SPECTRAL. *)
From Coq Require Import ZArith List Bool Lia Reals Lra Psatz.
From Coq Require Import ZifyBool ZifyNat.
From Coquelicot Require Import Coquelicot.
From Verif Require Import Prelude RealOrd GridSpec GridProofs AxisModel AxisSpec AxisProofs RuleModel RuleSpec BasProofs2 BasProofs3 RuleProps BasProps LagModel LagSpec LagProofs LagProofs2.
Import ListNotations.
Open Scope R_scope.

Lemma nodal_ok p X B0 : (1 <= p)%Z -> (forall i j, (0 <= i <= p)%Z -> (0 <= j <= p)%Z -> i <> j -> X i <> X j) ->
  (forall o a, B0 o a = 0) ->
  nodal_basis p X (fun u => lagrange_ders u p X (Z.min p 4) B0).
Proof.
  intros Hp Hd HB.
  assert (D : forall m k u, (0 <= m <= p)%Z -> (0 <= k <= 3)%Z ->
    is_derive_n (fun v => lagrange_ders v p X (Z.min p 4) B0 0%Z m) (Z.to_nat k) u (lagrange_ders u p X (Z.min p 4) B0 k m)).
  { intros m k u Hm Hk. apply (is_derive_n_ext (PP X m (sel p m []))).
    - intros v. symmetry. rewrite row by lia. reflexivity.
    - destruct (Z_le_dec k p).
      + rewrite row by lia. apply DD_derive_n, NoDup_sel.
      + replace (lagrange_ders u p X (Z.min p 4) B0 k m) with (DD X m (Z.to_nat k) (sel p m []) u); [apply DD_derive_n, NoDup_sel|].
        rewrite DD_zero; [|apply NoDup_sel|rewrite length_sel by auto; lia].
        unfold lagrange_ders. replace ((0 <=? m)%Z && (m <=? p)%Z) with true by lia. replace (k =? 0)%Z with false by lia.
        replace ((k =? 1)%Z && (1 <=? Z.min p 4)%Z) with false by lia. replace ((k =? 2)%Z && (2 <=? Z.min p 4)%Z) with false by lia.
        replace ((k =? 3)%Z && (3 <=? Z.min p 4)%Z) with false by lia. auto. }
  assert (S : forall u, rsum (fun m => lagrange_ders u p X (Z.min p 4) B0 0%Z m) (zseq 0 (p+1)) = 1).
  { intros u. pose proof (reproduces p X ltac:(lia) B0 Hd (Z.min p 4) [1] u ltac:(lia) ltac:(simpl; lia)) as R. simpl peval in R.
    transitivity (1 + u * 0); [|ring]. rewrite <- R. apply rsum_ext. intros; ring. }
  split; [exact Hd|]. split; [|split; [|split; [exact S|split; [exact D|]]]].
  - intros m j Hm Hj. apply delta; auto; lia.
  - intros c u Hc. apply reproduces; auto; lia.
  - intros k u Hk.
    assert (F : forall j v, (j < 3)%nat -> is_derive (fun v => rsum (fun m => lagrange_ders v p X (Z.min p 4) B0 (Z.of_nat j) m) (zseq 0 (p+1))) v
       (rsum (fun m => lagrange_ders v p X (Z.min p 4) B0 (Z.of_nat (Datatypes.S j)) m) (zseq 0 (p+1)))).
    { intros j v Hj. apply (BasProofs2.is_derive_rsum (fun m v => lagrange_ders v p X (Z.min p 4) B0 (Z.of_nat j) m) (fun m v => lagrange_ders v p X (Z.min p 4) B0 (Z.of_nat (Datatypes.S j)) m)).
      intros m Hm. apply in_zseq in Hm. pose proof (D m (Z.of_nat (Datatypes.S j)) v ltac:(lia) ltac:(lia)) as E.
      rewrite Nat2Z.id in E. cbn [is_derive_n] in E. eapply is_derive_ext; [|exact E]. intros w.
      apply is_derive_n_unique. pose proof (D m (Z.of_nat j) w ltac:(lia) ltac:(lia)) as E2. rewrite Nat2Z.id in E2. exact E2. }
    replace k with (Z.of_nat (Datatypes.S (Z.to_nat k - 1))) by lia.
    apply (BasProofs3.chain_const (fun j v => rsum (fun m => lagrange_ders v p X (Z.min p 4) B0 (Z.of_nat j) m) (zseq 0 (p+1))) 1 3); auto. lia.
Qed.

(** IGA_BASIS_LAGRANGE: equispaced nodes, the first and the last at the ends of the element. *)
Theorem C32_lagrange_basis :
  forall p k (U : Z -> R) B0, (1 <= p)%Z -> U k < U (k+1)%Z ->
  let X := fun i => U k + (U (k+1)%Z - U k) * (IZR i / IZR p) in
  nodal_basis p X (fun u => basis_lagrange k u p (Z.min p 4) U B0) /\ X 0%Z = U k /\ X p = U (k+1)%Z.
Proof.
  intros p k U B0 Hp HU X. assert (P0 : IZR p <> 0) by (apply not_0_IZR; lia).
  assert (E : forall i, newton_cotes (p+1) (U k) (U (k+1)%Z) i = X i).
  { intros i. unfold newton_cotes, X. replace (p+1-1)%Z with p by lia. unfold Rdiv. ring. }
  assert (Hd : forall i j, (0 <= i <= p)%Z -> (0 <= j <= p)%Z -> i <> j -> X i <> X j).
  { intros i j _ _ Hij H. apply Hij. apply eq_IZR. unfold X in H. assert (G : (U (k+1)%Z - U k) * (IZR i / IZR p) = (U (k+1)%Z - U k) * (IZR j / IZR p)) by lra.
    apply Rmult_eq_reg_l in G; [|lra]. unfold Rdiv in G. apply Rmult_eq_reg_r in G; auto. apply Rinv_neq_0_compat; auto. }
  split; [|split; [unfold X; field; auto|unfold X; field; auto]].
  assert (Hd' : forall i j, (0 <= i <= p)%Z -> (0 <= j <= p)%Z -> i <> j -> newton_cotes (p+1) (U k) (U (k+1)%Z) i <> newton_cotes (p+1) (U k) (U (k+1)%Z) j).
  { intros. rewrite !E. apply Hd; auto. }
  pose proof (nodal_ok p _ (fun _ _ => 0) Hp Hd' ltac:(auto)) as N.
  assert (EB : forall u, basis_lagrange k u p (Z.min p 4) U B0 = lagrange_ders u p (newton_cotes (p+1) (U k) (U (k+1)%Z)) (Z.min p 4) (fun _ _ => 0)).
  { intros u. unfold basis_lagrange, basis_nodal. replace (p =? 0)%Z with false by lia. auto. }
  destruct N as (_ & N2 & N3 & N4 & N5 & N6). split; [exact Hd|].
  split; [intros m j Hm Hj; rewrite EB, <- E; auto|].
  split; [intros c u Hc; rewrite <- (N3 c u Hc); apply rsum_ext; intros m _; rewrite EB, E; auto|].
  split; [intros u; rewrite EB; auto|]. split; [|intros j u Hj; rewrite EB; auto].
  intros m j u Hm Hj. rewrite EB. eapply is_derive_n_ext; [|apply N5; auto]. intros v. rewrite EB. auto.
Qed.
Print Assumptions C32_lagrange_basis.

(** IGA_BASIS_SPECTRAL for p = 1..9: the nodes are the points of the Gauss-Lobatto rule with p+1 points mapped
    to the element, so with that rule the basis is one or zero at the quadrature points (diagonal mass matrix). *)
Theorem C32_spectral_basis :
  forall lit p k (U : Z -> R) B0, rounds lit -> (1 <= p <= 9)%Z -> U k < U (k+1)%Z ->
  exists x w, gauss_lobatto lit Ropp (p+1) = Some (x, w) /\
  let X := fun i => (nth (Z.to_nat i) x 0 + 1) * ((U (k+1)%Z - U k) / 2) + U k in
  nodal_basis p X (fun u => basis_spectral lit k u p (Z.min p 4) U B0) /\
  (lit S36 = 1 -> X 0%Z = U k /\ X p = U (k+1)%Z).
Proof.
  intros lit p k U B0 HL Hp HU.
  assert (T : exists x w, gauss_lobatto lit Ropp (p+1) = Some (x, w) /\ lobatto_nodes lit Ropp (p+1) = Some x /\ nth 0 x 0 = - lit S36 /\ nth (Z.to_nat p) x 0 = - - lit S36).
  { assert (C : (p = 1 \/ p = 2 \/ p = 3 \/ p = 4 \/ p = 5 \/ p = 6 \/ p = 7 \/ p = 8 \/ p = 9)%Z) by lia.
    repeat (destruct C as [-> | C]; [do 2 eexists; split; [reflexivity|split; [reflexivity|split; reflexivity]]|]).
    subst p. do 2 eexists; split; [reflexivity|split; [reflexivity|split; reflexivity]]. }
  destruct T as (x & w & T1 & T2 & T3 & T4). exists x, w. split; [exact T1|]. intros X.
  assert (E : forall i, lobatto_points lit (p+1) (U k) (U (k+1)%Z) i = X i) by (intros i; unfold lobatto_points; rewrite T2; unfold X; field).
  assert (Hd : forall i j, (0 <= i <= p)%Z -> (0 <= j <= p)%Z -> i <> j -> X i <> X j).
  { assert (LT : forall i j, (0 <= i < j)%Z -> (j <= p)%Z -> X i < X j).
    { intros i j Hi Hj. destruct HL as [HL _]. destruct (nodes_near lit _ x HL T2) as (_ & _ & L & _).
      pose proof (nodes_increasing lit _ x HL T2 (Z.to_nat i) (Z.to_nat j) ltac:(lia) ltac:(lia)). unfold X. nra. }
    intros i j Hi Hj Hij. destruct (Z_lt_dec i j); [pose proof (LT i j); lra || (pose proof (LT i j ltac:(lia) ltac:(lia)); lra)|].
    pose proof (LT j i ltac:(lia) ltac:(lia)). lra. }
  split.
  - assert (Hd' : forall i j, (0 <= i <= p)%Z -> (0 <= j <= p)%Z -> i <> j -> lobatto_points lit (p+1) (U k) (U (k+1)%Z) i <> lobatto_points lit (p+1) (U k) (U (k+1)%Z) j).
    { intros. rewrite !E. apply Hd; auto. }
    pose proof (nodal_ok p _ (fun _ _ => 0) ltac:(lia) Hd' ltac:(auto)) as N.
    assert (EB : forall u, basis_spectral lit k u p (Z.min p 4) U B0 = lagrange_ders u p (lobatto_points lit (p+1) (U k) (U (k+1)%Z)) (Z.min p 4) (fun _ _ => 0)).
    { intros u. unfold basis_spectral, basis_nodal. replace (p =? 0)%Z with false by lia. auto. }
    destruct N as (_ & N2 & N3 & N4 & N5 & N6). split; [exact Hd|].
    split; [intros m j Hm Hj; rewrite EB, <- E; auto|].
    split; [intros c u Hc; rewrite <- (N3 c u Hc); apply rsum_ext; intros m _; rewrite EB, E; auto|].
    split; [intros u; rewrite EB; auto|]. split; [|intros j u Hj; rewrite EB; auto].
    intros m j u Hm Hj. rewrite EB. eapply is_derive_n_ext; [|apply N5; auto]. intros v. rewrite EB. auto.
  - intros L1. unfold X. change (Z.to_nat 0) with 0%nat. rewrite T3, T4, L1. split; field.
Qed.
Print Assumptions C32_spectral_basis.

(** IGA_BASIS_SPECTRAL from degree 10 on: all nodes coincide, so the routine divides by X(m)-X(i) = 0. *)
Theorem C32_spectral_high_degree_refuted :
  exists p, forall lit u0 u1 i m, lobatto_points lit (p+1) u0 u1 m - lobatto_points lit (p+1) u0 u1 i = 0.
Proof. exists 10%Z. intros. unfold lobatto_points. simpl. ring. Qed.
Print Assumptions C32_spectral_high_degree_refuted.

(** C66: the fourth derivatives (row 4, IGASetOrder accepts 4) are stored as zero. *)
Theorem C66_lagrange_fourth_derivative_refuted :
  exists p k (U : Z -> R) m u, (4 <= p)%Z /\ U k < U (k+1)%Z /\ (0 <= m <= p)%Z /\
  forall B0, basis_lagrange k u p (Z.min p 4) U B0 4%Z m = 0 /\
    is_derive_n (fun v => basis_lagrange k v p (Z.min p 4) U B0 0%Z m) 4 u 1.
Proof.
  exists 4%Z, 0%Z, (fun i => 4 * IZR i), 0%Z, 0. split; [lia|]. split; [change (4 * 0 < 4 * 1); lra|]. split; [lia|]. intros B0. split; [reflexivity|].
  set (X := newton_cotes 5 (4 * 0) (4 * 1)).
  apply (is_derive_n_ext (PP X 0 (sel 4 0 []))).
  - intros v. symmetry. unfold basis_lagrange, basis_nodal. replace (4 =? 0)%Z with false by lia. rewrite row by lia. reflexivity.
  - replace 1 with (DD X 0 4 (sel 4 0 []) 0); [apply DD_derive_n, NoDup_sel|].
    assert (E : forall i, X i = IZR i) by (intros; unfold X, newton_cotes; change (IZR (5-1)) with 4; field).
    change (sel 4 0 []) with [1; 2; 3; 4]%Z. cbn [DD]. unfold rsum. cbv -[Rplus Rminus Rmult Rdiv Rinv Ropp IZR R X]. rewrite !E. field.
Qed.
Print Assumptions C66_lagrange_fourth_derivative_refuted.

(** Quadratic Lagrange functions on [1,4] at u = 2. *)
Example C32_example : forall B0, let B := basis_lagrange 0 2 2 2 (fun i => 1 + 3 * IZR i) B0 in
  B 0%Z 0%Z = 2/9 /\ B 0%Z 1%Z = 8/9 /\ B 0%Z 2%Z = -1/9 /\ B 1%Z 0%Z = -5/9.
Proof. intros. cbv -[Rplus Rminus Rmult Rdiv Rinv Ropp IZR R]. repeat split; field. Qed.

(** C67: with a nodal basis the set-up refuses exactly the knot vectors in which some knot value is repeated
    fewer than p times. *)
Theorem C67_low_multiplicity_refused :
  forall lit maxreal p m (U : Z -> R) spans r, valid_knots (O:=Rord) p m U -> (1 <= ru_nqp r)%Z -> ru_type r <> RReduced ->
  let low := exists i, (1 <= i <= m-1)%Z /\ (count_eq (O:=Rord) U 1 (m-1) (U i) < p)%Z in
  let st := fst (fst (init_quadrature lit maxreal false p m U spans r)) in
  (low -> st = ErrRange) /\ (~ low -> st = Ok).
Proof.
  intros lit maxreal p m U spans r HV HQ HR low st. destruct HV as (Hp & Hm & HN & HB).
  pose proof (mult_ok_spec p m U HN (Z.to_nat (m+1)) 1 ltac:(lia) ltac:(lia) ltac:(intros; lia)) as M.
  unfold st, init_quadrature. replace (ru_nqp r <? 1)%Z with false by lia. cbn [negb andb].
  destruct (mult_ok p m U (Z.to_nat (m+1)) 1) eqn:E; cbn [negb].
  - pose proof (proj1 M eq_refl) as M1. split.
    + intros (i & Hi & Hlow). specialize (M1 i Hi). lia.
    + intros _. destruct (ru_type r); auto. exfalso; apply HR; auto.
  - split; auto. intros NL. exfalso. assert (F : false = true); [|discriminate]. apply M. intros i Hi.
    destruct (Z_le_dec p (count_eq (O:=Rord) U 1 (m-1) (U i))); auto. exfalso. apply NL. exists i. split; [auto|lia].
Qed.
Print Assumptions C67_low_multiplicity_refused.

Lemma nodal_offsets lit maxreal p m U spans r r' B : valid_knots (O:=Rord) p m U -> is_element_list (O:=Rord) p m U spans ->
  init_quadrature lit maxreal false p m U spans r = (Ok, r', Some B) ->
  forall e, (0 <= e < bq_nel B)%Z -> (nth (Z.to_nat e) spans 0%Z = p * (e+1))%Z /\ (bq_offset B e = p * e)%Z.
Proof.
  intros HV HE HQ e He. destruct HV as (Hp & Hm & HN & HB).
  assert (M : mult_ok p m U (Z.to_nat (m+1)) 1 = true /\ bq_nel B = Z.of_nat (length spans) /\ forall e, bq_offset B e = (nth (Z.to_nat e) spans 0 - p)%Z).
  { unfold init_quadrature in HQ. destruct (if (ru_nqp r <? 1)%Z then _ else _) as [s r1]. destruct s; try discriminate.
    destruct (mult_ok p m U (Z.to_nat (m+1)) 1) eqn:E; cbn [negb andb] in HQ; [|discriminate]. split; auto.
    destruct (negb (rtype_eqb (ru_type r1) RReduced)).
    - injection HQ as <- <-. auto.
    - destruct (if (_ && _)%bool then _ else _) as [s2 r2]. destruct s2; try discriminate. injection HQ as <- <-. auto. }
  destruct M as (M & L & OF). rewrite L in He.
  pose proof (mult_ok_elements p m U HN Hp HB (Z.to_nat (m+1)) spans Hm M HE) as ES.
  assert (N : nth (Z.to_nat e) spans 0%Z = (p * (e+1))%Z).
  { set (f := fun c => (p * (c+1))%Z) in ES. rewrite ES. rewrite nth_indep with (d' := f 0%Z) by (rewrite map_length, length_zseq; lia).
    rewrite map_nth, nth_zseq by lia. unfold f. lia. }
  split; auto. rewrite OF, N. lia.
Qed.

(** Elements whose last and first nodes coincide and share a coefficient give a continuous field. *)
Lemma shared_end p (X Y : Z -> R) (B C : R -> Z -> Z -> R) c o u : (1 <= p)%Z -> nodal_basis p X B -> nodal_basis p Y C -> X p = u -> Y 0%Z = u ->
  rsum (fun a => c (o + a)%Z * B u 0%Z a) (zseq 0 (p+1)) = c (o + p)%Z /\
  rsum (fun a => c (o + p + a)%Z * C u 0%Z a) (zseq 0 (p+1)) = c (o + p)%Z.
Proof.
  intros Hp (_ & B1 & _) (_ & C1 & _) <- EY. split.
  - rewrite (rsum_single _ _ _ p); [|apply NoDup_zseq|apply in_zseq; lia|].
    + rewrite B1, Z.eqb_refl by lia. ring.
    + intros a Ha Na. apply in_zseq in Ha. rewrite B1 by lia. replace (p =? a)%Z with false by lia. ring.
  - rewrite <- EY. rewrite (rsum_single _ _ _ 0%Z); [|apply NoDup_zseq|apply in_zseq; lia|].
    + rewrite C1 by lia. rewrite Z.add_0_r. simpl. ring.
    + intros a Ha Na. apply in_zseq in Ha. rewrite C1 by lia. replace (0 =? a)%Z with false by lia. ring.
Qed.

(** C67: when the set-up succeeds, neighbouring elements share exactly one function (the last of one, the first
    of the other) and the field of any coefficients takes the same value from both sides. *)
Definition nodal_field (eval : Z -> R -> Z -> Z -> R) (p : Z) (spans : list Z) (B : basis_q) (c : Z -> R) (e : Z) (u : R) : R :=
  rsum (fun a => c (bq_offset B e + a)%Z * eval (nth (Z.to_nat e) spans 0%Z) u 0%Z a) (zseq 0 (p+1)).

Theorem C67_nodal_fields_continuous :
  forall lit maxreal p m (U : Z -> R) spans r r' B B0, rounds lit -> lit S36 = 1 ->
  valid_knots (O:=Rord) p m U -> is_element_list (O:=Rord) p m U spans ->
  init_quadrature lit maxreal false p m U spans r = (Ok, r', Some B) ->
  forall e, (0 <= e)%Z -> (e + 1 < bq_nel B)%Z ->
  let ue := U (nth (Z.to_nat e) spans 0 + 1)%Z in
  (bq_offset B (e+1) = bq_offset B e + p)%Z /\
  ue = U (nth (Z.to_nat (e+1)) spans 0%Z) /\
  forall c,
    (let f := nodal_field (fun k u => basis_lagrange k u p (Z.min p 4) U B0) p spans B c in f e ue = f (e+1)%Z ue /\ f e ue = c (bq_offset B (e+1))) /\
    ((p <= 9)%Z ->
     let f := nodal_field (fun k u => basis_spectral lit k u p (Z.min p 4) U B0) p spans B c in f e ue = f (e+1)%Z ue /\ f e ue = c (bq_offset B (e+1))).
Proof.
  intros lit maxreal p m U spans r r' B B0 HL H1 HV HE HQ e He He2 ue.
  pose proof (nodal_offsets _ _ _ _ _ _ _ _ _ HV HE HQ) as O.
  destruct (O e ltac:(lia)) as [S1 O1]. destruct (O (e+1)%Z ltac:(lia)) as [S2 O2].
  assert (NE : (bq_nel B <= Z.of_nat (length spans))%Z).
  { unfold init_quadrature in HQ. destruct (if (ru_nqp r <? 1)%Z then _ else _) as [s r1]. destruct s; try discriminate.
    destruct (mult_ok p m U (Z.to_nat (m+1)) 1) eqn:E; cbn [negb andb] in HQ; [|discriminate].
    destruct (negb (rtype_eqb (ru_type r1) RReduced)).
    - injection HQ as <- <-. cbn. lia.
    - destruct (if (_ && _)%bool then _ else _) as [s2 r2]. destruct s2; try discriminate. injection HQ as <- <-. cbn. lia. }
  assert (EL : forall e, (0 <= e < bq_nel B)%Z -> is_element (O:=Rord) p m U (nth (Z.to_nat e) spans 0%Z)).
  { intros x Hx. apply (proj1 HE). apply nth_In. lia. }
  destruct HV as (Hp & Hm & HN & HB). pose proof (nondec_R m U HN) as HN'.
  pose proof (EL e ltac:(lia)) as [Eb EU]. pose proof (EL (e+1)%Z ltac:(lia)) as [Fb FU]. apply klt_R in EU, FU. rewrite S1 in Eb, EU. rewrite S2 in Fb, FU.
  assert (UE : ue = U (p * (e+1+1))%Z).
  { unfold ue. rewrite S1. destruct (Rle_lt_dec (U (p * (e+1+1))%Z) (U (p * (e+1) + 1)%Z)) as [L|L].
    - apply Rle_antisym; auto. apply HN'; nia.
    - exfalso.
      assert (G : forall n, (p * (e+1) + 1 <= p * (e+1) + 1 + Z.of_nat n <= p * (e+1+1))%Z -> U (p * (e+1) + 1 + Z.of_nat n)%Z = U (p * (e+1) + 1)%Z).
      { induction n as [|n IH]; intros Hn; [f_equal; lia|]. rewrite <- IH by lia. apply Rle_antisym; [|apply HN'; nia].
        destruct (Rle_lt_dec (U (p * (e+1) + 1 + Z.of_nat (Datatypes.S n))%Z) (U (p * (e+1) + 1 + Z.of_nat n)%Z)) as [Q|Q]; auto. exfalso.
        assert (IE : is_element (O:=Rord) p m U (p * (e+1) + 1 + Z.of_nat n)%Z).
        { split; [nia|]. apply klt_R. replace (p * (e+1) + 1 + Z.of_nat n + 1)%Z with (p * (e+1) + 1 + Z.of_nat (Datatypes.S n))%Z by lia. auto. }
        apply (proj1 HE) in IE. apply (In_nth _ _ 0%Z) in IE. destruct IE as (x & Hx & Ex).
        assert (BX : (Z.of_nat x < bq_nel B)%Z).
        { unfold init_quadrature in HQ. destruct (if (ru_nqp r <? 1)%Z then _ else _) as [s r1]. destruct s; try discriminate.
          destruct (mult_ok p m U (Z.to_nat (m+1)) 1) eqn:E; cbn [negb andb] in HQ; [|discriminate].
          destruct (negb (rtype_eqb (ru_type r1) RReduced)).
          - injection HQ as <- <-. cbn. lia.
          - destruct (if (_ && _)%bool then _ else _) as [s2 r2]. destruct s2; try discriminate. injection HQ as <- <-. cbn. lia. }
        destruct (O (Z.of_nat x) ltac:(lia)) as [SX _]. rewrite Nat2Z.id in SX. rewrite SX in Ex.
        assert ((e + 1 < Z.of_nat x + 1)%Z) by nia. assert ((Z.of_nat x + 1 < e + 2)%Z) by nia. lia. }
      specialize (G (Z.to_nat (p-1)) ltac:(nia)). replace (p * (e+1) + 1 + Z.of_nat (Z.to_nat (p-1)))%Z with (p * (e+1+1))%Z in G by lia. lra. }
  split; [lia|]. split; [rewrite S2; exact UE|]. intros c. split.
  - destruct (C32_lagrange_basis p _ U B0 Hp EU) as (NB1 & _ & P1). destruct (C32_lagrange_basis p _ U B0 Hp FU) as (NB2 & P2 & _).
    destruct (shared_end p _ _ _ _ c (bq_offset B e) ue Hp NB1 NB2) as [T1 T2]; [rewrite P1; unfold ue; rewrite S1; auto|rewrite P2; symmetry; exact UE|].
    cbv zeta. unfold nodal_field. rewrite S1, S2, T1. replace (bq_offset B (e+1)) with (bq_offset B e + p)%Z by lia. rewrite T2. auto.
  - intros H9. destruct (C32_spectral_basis lit p _ U B0 HL ltac:(lia) EU) as (x1 & w1 & _ & NB1 & P1). destruct (P1 H1) as [_ P1']. clear P1.
    destruct (C32_spectral_basis lit p _ U B0 HL ltac:(lia) FU) as (x2 & w2 & _ & NB2 & P2). destruct (P2 H1) as [P2' _]. clear P2.
    destruct (shared_end p _ _ _ _ c (bq_offset B e) ue Hp NB1 NB2) as [T1 T2]; [rewrite P1'; unfold ue; rewrite S1; auto|rewrite P2'; symmetry; exact UE|].
    cbv zeta. unfold nodal_field. rewrite S1, S2, T1. replace (bq_offset B (e+1)) with (bq_offset B e + p)%Z by lia. rewrite T2. auto.
Qed.
Print Assumptions C67_nodal_fields_continuous.

(** C67 applies: p = 2, knots 0,0,0,1,1,2,2,2 (elements at spans 2 and 4); the knots 0,0,0,1,4,5,5,5 are refused. *)
Definition c0_knots : Z -> R := fun i => if (i <? 3)%Z then 0 else if (i <? 5)%Z then 1 else 2.
Example C67_example :
  valid_knots (O:=Rord) 2 7 c0_knots /\ is_element_list (O:=Rord) 2 7 c0_knots [2; 4]%Z /\
  forall lit maxreal,
    let r := snd (rule_run lit [OpSetRule 1 [0] [2]] rule_create) in
    (exists B, init_quadrature lit maxreal false 2 7 c0_knots [2; 4]%Z r = (Ok, r, Some B) /\ bq_nel B = 2%Z /\ bq_offset B 1 = 2%Z) /\
    fst (fst (init_quadrature lit maxreal false 2 7 ex_knots [2; 3; 4]%Z r)) = ErrRange.
Proof.
  assert (HV : valid_knots (O:=Rord) 2 7 c0_knots).
  { split; [lia|]. split; [lia|]. split.
    - intros i j Hi Hij Hj. apply kle_R. unfold c0_knots. destruct (i <? 3)%Z eqn:?, (i <? 5)%Z eqn:?, (j <? 3)%Z eqn:?, (j <? 5)%Z eqn:?; try lia; lra.
    - intros v. change (Z.of_nat (length (filter (fun j => keqb (O:=Rord) (c0_knots j) v) [1;2;3;4;5;6]%Z)) <= 2)%Z. cbn [filter].
      change (c0_knots 1%Z) with 0. change (c0_knots 2%Z) with 0. change (c0_knots 3%Z) with 1.
      change (c0_knots 4%Z) with 1. change (c0_knots 5%Z) with 2. change (c0_knots 6%Z) with 2.
      assert (E : forall x y : R, x <> y -> keqb (O:=Rord) x v = true -> keqb (O:=Rord) y v = false).
      { intros x y Hxy Hx. destruct (keqb (O:=Rord) y v) eqn:Hy; auto. exfalso. apply keqb_spec, keq_R in Hx. apply keqb_spec, keq_R in Hy. apply Hxy. congruence. }
      destruct (keqb (O:=Rord) 0 v) eqn:E0; [rewrite (E 0 1), (E 0 2) by (auto; lra); simpl; lia|].
      destruct (keqb (O:=Rord) 1 v) eqn:E1; [rewrite (E 1 2) by (auto; lra); simpl; lia|].
      destruct (keqb (O:=Rord) 2 v); simpl; lia. }
  split; [exact HV|]. split.
  - split; [|repeat constructor]. intros k. unfold is_element. rewrite klt_R. split.
    + intros [<-|[<-|[]]]; (split; [lia|]); unfold c0_knots; simpl; lra.
    + intros [Hk HU]. assert (C : (k = 2 \/ k = 3 \/ k = 4)%Z) by lia. destruct C as [-> | [-> | ->]]; simpl; auto. unfold c0_knots in HU. simpl in HU. lra.
  - intros lit maxreal r.
    assert (R1 : ru_nqp r = 1%Z) by reflexivity. assert (R2 : ru_type r <> RReduced) by discriminate.
    split.
    + pose proof (C67_low_multiplicity_refused lit maxreal 2 7 c0_knots [2; 4]%Z r HV ltac:(lia) R2) as [_ H].
      assert (NL : ~ exists i, (1 <= i <= 7-1)%Z /\ (count_eq (O:=Rord) c0_knots 1 (7-1) (c0_knots i) < 2)%Z).
      { intros (i & Hi & Hc).
        assert (Q : (exists a, 1 <= a <= 5 /\ count_eq (O:=Rord) c0_knots 1 (7-1) (c0_knots i) = a + 2 - a)%Z).
        { set (a := (if (i <? 3) then 1 else if (i <? 5) then 3 else 5)%Z). exists a. split; [unfold a; destruct (i <? 3)%Z, (i <? 5)%Z; lia|].
          apply AxisProofs2.count_eq_interval; try (unfold a; destruct (i <? 3)%Z, (i <? 5)%Z; lia).
          intros j Hj. unfold c0_knots, a. destruct (i <? 3)%Z eqn:?, (i <? 5)%Z eqn:?, (j <? 3)%Z eqn:?, (j <? 5)%Z eqn:?; split; intros; try lia; try lra. }
        destruct Q as (a & _ & Q). rewrite Q in Hc. lia. }
      specialize (H NL). unfold init_quadrature in *. rewrite R1 in *. cbn [Z.ltb negb andb] in *. change (1 <? 1)%Z with false in *.
      destruct (mult_ok 2 7 c0_knots (Z.to_nat (7+1)) 1); cbn [negb andb] in *; [|discriminate].
      eexists. split; [reflexivity|]. split; reflexivity.
    + apply (C67_low_multiplicity_refused lit maxreal 2 7 ex_knots [2; 3; 4]%Z r ex_knots_valid ltac:(lia) R2).
      exists 3%Z. split; [lia|]. rewrite (AxisProofs2.count_eq_interval _ _ _ _ 3 4); try lia.
      intros j Hj. unfold ex_knots. destruct (j <? 3)%Z eqn:?, (j =? 3)%Z eqn:?, (j =? 4)%Z eqn:?; simpl; split; intros; try lia; try lra.
Qed.
