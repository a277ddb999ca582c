(** C50, C79, C80: examples and counterexamples for the probe. *)
From Coq Require Import ZArith List Bool Lia Reals Lra Psatz.
From Coq Require Import ZifyBool ZifyNat.
From Coquelicot Require Import Coquelicot.
From Verif Require Import Prelude RealOrd AxisModel AxisSpec AxisProofs AxisInitModel AxisInitSpec AxisProofs2 CollocProofs PartModel PartSpec PartProofs SetupModel SetupProofs SetupProps
  GridModel GridSpec GridProofs GridProofs2 GridSetup GridProps ElemSpec
  BasModel BasSpec BasProps MapModel MapSpec MapProps AxisProps RuleProps
  ProbeModel ProbeSpec ProbeProofs ProbeProofs2 ProbeProofs3 ProbeProps Box.
Import ListNotations.
Open Scope Z_scope.

(** The local array holding given nodal values. *)
Definition local_array (gs gw : Z -> Z) (bs : Z) (f : triple -> Z -> R) (j : Z) : R :=
  f (tadd gs (unlin gw (j / bs))) (j mod bs).
Lemma local_array_copy gs gw bs f : local_copy gs gw bs (local_array gs gw bs f) f.
Proof.
  intros [[i j] k] c Ht Hc. unfold in_box in Ht. unfold local_array, tsub.
  rewrite Z.div_add_l, (Z.div_small c), Z.add_0_r by lia. rewrite (Z.add_comm _ c), Z.mod_add, Z.mod_small by lia.
  rewrite unlin_lin by lia. unfold tadd. f_equal. f_equal; [f_equal|]; lia.
Qed.

(** A probe of the discretisation with knots 0 0 0 1 4 5 5 5, degree two, on two processes. *)
Definition ex_E : penv := mk_penv 1 1 1 ex_raxes (fun r => ly_geom (ex_rLY r)) None None
  (fun _ k u p d U => basis_bspline k u p d U (fun _ _ => 0%R) (fun _ _ => 0%R) (fun _ _ => 0%R) (fun _ => 0%R) (fun _ => 0%R)).
Definition ex_A (t : triple) (c : Z) : R := let '(i, _, _) := t in IZR (i*i).
Definition ex_St (order : Z) (coll : bool) (r : Z) : probe :=
  pb_set_coll (pb_set_vec (probe_init ex_E 2 order) (Some (local_array (ghost_lo ex_rLY r) (ghost_width ex_rLY r) 1 ex_A))) coll.

Lemma ex_probe_of : probe_of 2 1 ex_raxes ex_rLY ex_E.
Proof. split; [reflexivity|]. split; [reflexivity|]. intros; reflexivity. Qed.
Lemma ex_tables : bspline_tables ex_E.
Proof. exists (fun _ _ _ _ => 0%R), (fun _ _ _ _ => 0%R), (fun _ _ _ _ => 0%R), (fun _ _ _ => 0%R), (fun _ _ _ => 0%R). reflexivity. Qed.
Lemma ex_in_domain x : (0 <= x <= 5)%R -> in_domain 1 ex_raxes (fun _ => x).
Proof. intros H d Hd. cbn [ex_raxes ax_U ax_p ax_m]. change (ex_knots 2) with 0%R. change (ex_knots (7-2)) with 5%R. exact H. Qed.

(** C50, C79: the point 2 is found; collectively and on the processes holding it the value and the derivatives are
    those of the field, here with the coefficients 0 1 4 9 16. *)
Example C50_example : exists k, spans_of 1 ex_raxes (fun _ => 2%R) k /\
  exists r, 0 <= r < 2 /\ pb_off (locate ex_E r (fun _ => 2%R) (ex_St 2 false r)) = false.
Proof.
  destruct (C50_some_process_holds_the_point _ _ _ _ _ _ _ _ ex_E (fun _ => 2%R) (ex_St 2 false) ex_rsetup_ok ex_probe_of (ex_in_domain 2 ltac:(lra))) as (k & K1 & _ & _ & K2 & _).
  exists k. auto.
Qed.
Example C79_example : forall coll, exists St', set_point ex_E 2 (fun _ => 2%R) (ex_St 2 coll) = Some St' /\
  exists r, 0 <= r < 2 /\ snd (evaluate ex_E (St' r) 0) [] 0 = spline_field 1 ex_raxes None ex_A 0 (fun _ => 2%R).
Proof.
  intros coll.
  destruct (C79_evaluates_the_field _ _ _ _ _ _ _ _ ex_E (fun _ => 2%R) 2 coll ex_A None (ex_St 2 coll) ex_rsetup_ok ex_probe_of ex_tables (ex_in_domain 2 ltac:(lra)) ltac:(lia)) as (St' & H1 & (r & Hr & Hoff) & H3).
  - left. reflexivity.
  - exact I.
  - intros r Hr. split; [reflexivity|]. split; [reflexivity|]. eexists. split; [reflexivity|]. apply local_array_copy.
  - exists St'. split; [exact H1|]. exists r. split; [exact Hr|]. destruct (H3 r Hr) as [_ H4]. destruct (H4 (or_intror Hoff)) as (k & D & K1 & D0 & _ & D2).
    destruct (D2 0 ltac:(lia)) as [_ ->]. rewrite D0 by (change (pe_dof ex_E) with 1; lia).
    apply (C79_piece_is_the_field _ _ _ _ _ _ _ _ _ k None ex_A 0 ex_rsetup_ok K1). intros d Hd. cbn [ex_raxes ax_U ax_p ax_m]. change (ex_knots (7-2)) with 5%R. lra.
Qed.

(** C80: the settings of the probe are changed after the point was set. *)
Lemma span_unique p m (U : Z -> R) u k : nondecreasing (O:=Rord) m U -> 0 <= p -> klt (O:=Rord) (U p) (U (p+1)) -> klt (O:=Rord) (U (m-p-1)) (U (m-p)) ->
  p <= k <= m-p-1 -> (U k <= u < U (k+1)%Z)%R -> find_span (O:=Rord) (m-p-1) p u U = Some k.
Proof.
  intros HN Hp E1 E2 Hk Hu. assert (HR : forall i j, 0 <= i -> i <= j -> j <= m -> (U i <= U j)%R) by (intros i j A B C; apply kle_R; apply HN; auto).
  destruct (C29_find_span_correct Rord (m-p-1) p u U) as (k' & K1 & K2 & K3 & K4 & K5 & K6); auto; try lia.
  - replace (m-p-1+1) with (m-p) by lia. exact E2.
  - apply kle_R. pose proof (HR p k ltac:(lia) ltac:(lia) ltac:(lia)). lra.
  - apply kle_R. pose proof (HR (k+1) (m-p-1+1) ltac:(lia) ltac:(lia) ltac:(lia)). lra.
  - rewrite K1. f_equal. apply kle_R in K4. apply klt_R in K3.
    assert (K6' : (u < U (k'+1)%Z)%R \/ (k' = m-p-1 /\ u = U (m-p-1+1)%Z)) by (destruct K6 as [K6|[K6 K7]]; [left; apply klt_R; exact K6|right; apply keq_R in K7; auto]).
    destruct (Z_lt_dec k k') as [L|L].
    + pose proof (HR (k+1) k' ltac:(lia) ltac:(lia) ltac:(lia)). lra.
    + destruct (Z_lt_dec k' k) as [L'|L']; [|lia].
      destruct K6' as [K6'|[K6' K7]]; [pose proof (HR (k'+1) k ltac:(lia) ltac:(lia) ltac:(lia)); lra|lia].
Qed.

Lemma ex_span_unique k : spans_of 1 ex_raxes (fun _ => 2%R) k -> k 0 = 3.
Proof.
  intros H. destruct (H 0 ltac:(lia)) as (H1 & _ & H3 & H4). cbn [ex_raxes ax_U ax_p ax_m] in *.
  assert (C : k 0 = 2 \/ k 0 = 3 \/ k 0 = 4) by lia. destruct C as [C | [C | C]]; [|exact C|]; exfalso; rewrite C in *.
  - change (ex_knots (2+1)) with 1%R in H4. change (ex_knots (7-2)) with 5%R in H4. destruct H4 as [H4|[_ H4]]; lra.
  - change (ex_knots 4) with 4%R in H3. lra.
Qed.
Lemma ex_piece y : piece_field 1 ex_raxes (fun _ => 3) None ex_A 0 y = 
   (1 * ((4 - y 1%Z) / 4 * ((4 - y 1%Z) / 3)) + 4 * ((y 1%Z - 0) / 4 * ((4 - y 1%Z)/3) + (5 - y 1%Z)/4 * ((y 1%Z - 1)/3)) + 9 * ((y 1%Z - 1)/4 * ((y 1%Z - 1)/3)))%R.
Proof.
  unfold piece_field, piece_weight. change (zseq 1 (piece_nen 1 ex_raxes)) with [1;2;3].
  cbv -[Rplus Rminus Rmult Rdiv Rinv Ropp IZR R Req_EM_T].
  repeat match goal with |- context [Req_EM_T ?a ?b] => destruct (Req_EM_T a b); try (exfalso; lra) end; field.
Qed.

(** The probe is created with order 0 and a point is set; then the order is raised with IGAProbeSetOrder and the
    derivative is evaluated.  Both calls succeed on both processes; the field has the derivative 11/6, the answer is 0. *)
Theorem C80_order_raised_refuted :
  exists g2 g3 maxint size dim (axes : Z -> axis Rord) user LY E A St St' (x : R),
  setup_ok g2 g3 maxint size dim axes user LY /\ probe_of size dim axes LY E /\ bspline_tables E /\
  in_domain dim axes (fun _ => x) /\
  (forall r, 0 <= r < size -> exists L, pb_vec (St r) = Some L /\ local_copy (ghost_lo LY r) (ghost_width LY r) (pe_dof E) L A) /\
  set_point E size (fun _ => x) St = Some St' /\
  (forall r, 0 <= r < size -> fst (set_order 1 (St' r)) = Ok /\
     fst (evaluate E (snd (set_order 1 (St' r))) 1) = Ok /\ snd (evaluate E (snd (set_order 1 (St' r))) 1) [1] 0 = 0%R) /\
  is_derive (fun y => spline_field dim axes None A 0 (fun _ => y)) x (11/6)%R.
Proof.
  destruct (C50_some_process_holds_the_point _ _ _ _ _ _ _ _ ex_E (fun _ => 2%R) (ex_St 0 true) ex_rsetup_ok ex_probe_of (ex_in_domain 2 ltac:(lra))) as (k & K1 & _ & _ & K2 & St' & E & _).
  exists exact_g2, exact_g3, (2^31-1), 2, 1, ex_raxes, [-1], ex_rLY, ex_E, ex_A, (ex_St 0 true), St', 2%R.
  split; [exact ex_rsetup_ok|]. split; [exact ex_probe_of|]. split; [exact ex_tables|]. split; [apply ex_in_domain; lra|].
  split; [intros r Hr; eexists; split; [reflexivity|apply local_array_copy]|]. split; [exact E|]. split.
  - intros r Hr. split; [reflexivity|]. unfold set_point_all in E. destruct (_ && _); [discriminate|]. apply (f_equal (fun o => match o with Some s => s r | None => St' r end)) in E. cbv beta iota zeta in E. rewrite <- E.
    match goal with |- fst (evaluate ?e (snd (set_order 1 (build _ ?q))) 1) = Ok /\ _ => set (q0 := q) end.
    assert (O0 : pb_order q0 = 0) by (unfold q0; cbn [pb_set_data pb_order]; destruct (pb_off _); reflexivity).
    assert (C0 : pb_coll q0 = true) by (unfold q0; cbn [pb_set_data pb_coll]; destruct (pb_off _); reflexivity).
    assert (M0 : pb_M q0 = zero_nders) by (unfold q0; cbn [pb_set_data pb_M]; destruct (pb_off _); reflexivity).
    assert (V0 : exists v, pb_vec q0 = Some v) by (unfold q0; cbn [pb_set_data pb_vec]; destruct (pb_off _); eexists; reflexivity).
    clearbody q0. destruct V0 as [v V0].
    unfold evaluate, set_order. change ((1 <? 0) || (4 <? 1)) with false. cbn [snd]. unfold build. cbn [pe_X ex_E pe_W pb_set_tab pb_set_order pb_order pb_vec pb_off pb_coll pb_M].
    rewrite V0, C0, O0, M0. change ((1 <? 0) || (1 <? 1)) with false. cbv iota. rewrite andb_false_r. cbn [fst snd]. split; [reflexivity|].
    unfold nd_get, basis_funs. cbn [n1]. change (0 <? 1) with true. cbv iota. unfold eval_field. cbn [n1 zero_nders].
    change (pr_nen ex_E) with 3. cbv -[Rplus Rmult IZR R pb_A]. ring.
  - apply (is_derive_ext_loc (fun y => piece_field 1 ex_raxes (fun _ => 3) None ex_A 0 (fun _ => y))).
    + assert (HL : locally 2%R (fun y => (1 < y < 4)%R)).
      { apply (open_and (fun y => 1 < y)%R (fun y => y < 4)%R (open_gt 1) (open_lt 4)). lra. }
      revert HL. apply filter_imp. intros y Hy.
      apply (C79_piece_is_the_field _ _ _ _ _ _ _ _ (fun _ => y) (fun _ => 3) None ex_A 0 ex_rsetup_ok).
      * intros d Hd. cbn [ex_raxes ax_U ax_p ax_m]. change (ex_knots (3+1)) with 4%R. change (ex_knots 3) with 1%R. split; [lia|]. split; [lra|]. split; [lra|]. left. lra.
      * intros d Hd. cbn [ex_raxes ax_U ax_p ax_m]. change (ex_knots (7-2)) with 5%R. lra.
    + eapply is_derive_ext; [intros y; symmetry; apply ex_piece|]. cbv beta. auto_derive; [exact I|]. field.
Qed.
Print Assumptions C80_order_raised_refuted.

(** With a coefficient one at the first control point. *)
Definition ex_A1 (t : triple) (c : Z) : R := let '(i, _, _) := t in if i =? 0 then 1%R else 0%R.
Definition ex_St1 (r : Z) : probe :=
  pb_set_coll (pb_set_vec (probe_init ex_E 2 0) (Some (local_array (ghost_lo ex_rLY r) (ghost_width ex_rLY r) 1 ex_A1))) false.
Lemma ex_ghost_lo : ghost_lo ex_rLY 1 0 = 2.
Proof. vm_compute. reflexivity. Qed.

(** The point is set while the probe is not collective, then IGAProbeSetCollective(prb,PETSC_TRUE).  The evaluation
    succeeds on every process, but a process not holding the point returns what was in its arrays. *)
Theorem C80_made_collective_refuted :
  exists g2 g3 maxint size dim (axes : Z -> axis Rord) user LY E A St St' (x : R) r,
  setup_ok g2 g3 maxint size dim axes user LY /\ probe_of size dim axes LY E /\ bspline_tables E /\
  in_domain dim axes (fun _ => x) /\
  (forall r, 0 <= r < size -> exists L, pb_vec (St r) = Some L /\ local_copy (ghost_lo LY r) (ghost_width LY r) (pe_dof E) L A) /\
  set_point E size (fun _ => x) St = Some St' /\ 0 <= r < size /\
  fst (evaluate E (set_collective size true (St' r)) 0) = Ok /\
  pb_coll (set_collective size true (St' r)) = true /\
  snd (evaluate E (set_collective size true (St' r)) 0) [] 0 = 0%R /\
  spline_field dim axes None A 0 (fun _ => x) = 1%R.
Proof.
  destruct (C50_some_process_holds_the_point _ _ _ _ _ _ _ _ ex_E (fun _ => 0%R) ex_St1 ex_rsetup_ok ex_probe_of (ex_in_domain 0 ltac:(lra))) as (k & K1 & _ & K3 & _).
  assert (Hk : k 0 = 2).
  { destruct (K1 0 ltac:(lia)) as (H1 & _ & H3 & H4). cbn [ex_raxes ax_U ax_p ax_m] in *.
    assert (C : k 0 = 2 \/ k 0 = 3 \/ k 0 = 4) by lia. destruct C as [C | [C | C]]; [exact C| |]; exfalso; rewrite C in *.
    - change (ex_knots 3) with 1%R in H3. lra.
    - change (ex_knots 4) with 4%R in H3. lra. }
  assert (Off : pb_off (locate ex_E 1 (fun _ => 0%R) (ex_St1 1)) = true).
  { destruct (pb_off (locate ex_E 1 (fun _ => 0%R) (ex_St1 1))) eqn:Q; [reflexivity|exfalso].
    pose proof (proj1 (K3 1 ltac:(lia)) Q) as Q'. clear Q. rename Q' into Q. specialize (Q 1 ltac:(change (piece_nen 1 ex_raxes) with 3; lia)).
    unfold in_box, active_node in Q. rewrite ex_ghost_lo, Hk in Q. cbn [ex_raxes ax_p] in Q. change (0 <? 1) with true in Q. cbn iota in Q. change ((1-1) mod (2+1)) with 0 in Q. change (0 =? 0) with true in Q. cbn iota in Q. lia. }
  exists exact_g2, exact_g3, (2^31-1), 2, 1, ex_raxes, [-1], ex_rLY, ex_E, ex_A1, ex_St1, (fun r => set_point_self ex_E r (fun _ => 0%R) (ex_St1 r)), 0%R, 1.
  split; [exact ex_rsetup_ok|]. split; [exact ex_probe_of|]. split; [exact ex_tables|]. split; [apply ex_in_domain; lra|].
  split; [intros r Hr; eexists; split; [reflexivity|apply local_array_copy]|]. split; [reflexivity|]. split; [lia|].
  unfold set_point_self. rewrite Off. unfold locate. split; [|split; [reflexivity|split]].
  - unfold set_collective. cbn [pb_set_coll]. unfold evaluate. cbn [pb_set_coll pb_set_loc pb_order pb_coll pb_vec pb_off ex_St1 pb_set_vec probe_init].
    change ((0 <? 0) || (0 <? 0)) with false. change (negb (true && negb (2 =? 1))) with false. rewrite andb_false_r. reflexivity.
  - unfold set_collective. cbn [pb_set_coll]. unfold evaluate. cbn [pb_set_coll pb_set_loc pb_order pb_coll pb_vec pb_off ex_St1 pb_set_vec probe_init].
    change ((0 <? 0) || (0 <? 0)) with false. change (negb (true && negb (2 =? 1))) with false. rewrite andb_false_r. cbn [snd].
    change (pr_nen ex_E) with 3. cbv -[Rplus Rmult IZR R]. ring.
  - rewrite <- (C79_piece_is_the_field _ _ _ _ _ _ _ _ (fun _ => 0%R) (fun _ => 2) None ex_A1 0 ex_rsetup_ok).
    + unfold piece_field, piece_weight. change (zseq 1 (piece_nen 1 ex_raxes)) with [1;2;3].
      cbv -[Rplus Rminus Rmult Rdiv Rinv Ropp IZR R Req_EM_T].
      repeat match goal with |- context [Req_EM_T ?a ?b] => destruct (Req_EM_T a b); try (exfalso; lra) end; field.
    + intros d Hd. cbn [ex_raxes ax_U ax_p ax_m]. change (ex_knots (2+1)) with 1%R. change (ex_knots 2) with 0%R. split; [lia|]. split; [lra|]. split; [lra|]. left. lra.
    + intros d Hd. cbn [ex_raxes ax_U ax_p ax_m]. change (ex_knots (7-2)) with 5%R. lra.
Qed.
Print Assumptions C80_made_collective_refuted.

(** C50 in collocation mode: a knot span between the spans of the collocation points of neighbouring processes. *)
Definition gap_breaks (b : Z) : R := if b =? 0 then 0%R else if b =? 1 then 100%R else if b =? 2 then 101%R else 10000%R.
Lemma span_end p m (U : Z -> R) : nondecreasing (O:=Rord) m U -> 0 <= p -> p <= m-p-1 -> klt (O:=Rord) (U p) (U (p+1)) -> klt (O:=Rord) (U (m-p-1)) (U (m-p)) ->
  find_span (O:=Rord) (m-p-1) p (U (m-p)) U = Some (m-p-1).
Proof.
  intros HN Hp Hpm E1 E2. assert (HR : forall i j, 0 <= i -> i <= j -> j <= m -> (U i <= U j)%R) by (intros i j A B C; apply kle_R; apply HN; auto).
  destruct (C29_find_span_correct Rord (m-p-1) p (U (m-p)) U) as (k' & K1 & K2 & K3 & K4 & K5 & K6); auto; try lia.
  - replace (m-p-1+1) with (m-p) by lia. exact E2.
  - apply kle_R. apply HR; lia.
  - replace (m-p-1+1) with (m-p) by lia. apply kle_R. lra.
  - rewrite K1. f_equal. destruct K6 as [K6|[K6 K7]]; [|exact K6]. exfalso. apply klt_R in K6.
    pose proof (HR (k'+1) (m-p) ltac:(lia) ltac:(lia) ltac:(lia)). lra.
Qed.

Theorem C50_collocation_point_lost_refuted :
  exists (a : axis Rord) shift (nd : Z -> range) (E : penv) (x : R),
    axis_init_breaks 4 gap_breaks (-1) (fun _ => 0%R) (@mk_axis Rord false 3 1 (fun _ => 0%R) 1 1 (Some [0])) = (Ok, a) /\
    axis_ready a /\ ends_nonempty (O:=Rord) (ax_p a) (ax_m a) (ax_U a) /\
    (forall r, 0 <= r < 2 -> colloc_node_range a (ax_nnp a) (dist_s 2 (ax_nnp a) r) (dist_n 2 (ax_nnp a) r) = Some (shift, nd r) /\
                             pe_geom E r 0 = colloc_geom_range a 2 r shift (nd r)) /\
    pe_dim E = 1 /\ pe_axes E 0 = a /\ in_domain 1 (pe_axes E) (fun _ => x) /\
    forall St, (forall r, 0 <= r < 2 -> pb_off (locate E r (fun _ => x) (St r)) = true) /\
               (pb_vec (St 0) <> None -> set_point_all E 2 (fun _ => x) St = None).
Proof.
  pose proof (init_breaks_spec 4 gap_breaks (-1) (fun _ => 0%R) (@mk_axis Rord false 3 1 (fun _ => 0%R) 1 1 (Some [0]))) as HS.
  destruct (axis_init_breaks 4 gap_breaks (-1) (fun _ : Z => 0%R) (@mk_axis Rord false 3 1 (fun _ => 0%R) 1 1 (Some [0]))) as [st a] eqn:E.
  cbn [ax_p ax_periodic] in HS. cbv zeta in HS. change (eff_C (-1) 3) with 2 in HS.
  destruct HS as (H1 & _ & H3).
  assert (Hok : st = Ok).
  { apply H1. split; [lia|]. split; [lia|]. split; [|lia].
    intros i Hi. assert (C : i = 1 \/ i = 2 \/ i = 3) by lia.
    destruct C as [-> | [-> | ->]]; cbv -[Rlt IZR]; apply IZR_lt; lia. }
  subst st. specialize (H3 eq_refl). destruct H3 as [G1 G2 G3 G4 G5 G6 G7 G8 G9 G10 G11]. specialize (G11 eq_refl).
  destruct G11 as (O1 & O2 & _). pose proof G6 as (l & L1 & L2 & L3 & L4).
  change (4-1) with 3 in *.
  assert (Em : ax_m a = 9) by (rewrite G3; reflexivity).
  assert (En : ax_nnp a = 6) by (rewrite G7; reflexivity).
  assert (HU0 : forall i, 0 <= i <= 3 -> ax_U a i = 0%R) by (intros i Hi; rewrite O1 by lia; reflexivity).
  assert (HU4 : ax_U a 4 = 100%R) by (destruct (L4 1 ltac:(lia)) as (_ & X & _); exact X).
  assert (HU5 : ax_U a 5 = 101%R) by (destruct (L4 2 ltac:(lia)) as (_ & X & _); exact X).
  assert (HU6 : forall i, 6 <= i <= 9 -> ax_U a i = 10000%R) by (intros i Hi; rewrite O2 by lia; reflexivity).
  assert (Hwf : axis_ready a).
  { exists l. split; auto. rewrite G1, G2. split; [auto|]. split; [auto|]. split; [lia|].
    rewrite En, Em. reflexivity. }
  assert (E1 : klt (O:=Rord) (ax_U a 3) (ax_U a (3+1))) by (apply klt_R; change (3+1) with 4; rewrite HU4, HU0 by lia; lra).
  assert (E2 : klt (O:=Rord) (ax_U a (9-3-1)) (ax_U a (9-3))) by (apply klt_R; change (9-3-1) with 5; change (9-3) with 6; rewrite HU5, HU6 by lia; lra).
  assert (HN : nondecreasing (O:=Rord) 9 (ax_U a)) by (destruct G4 as (_ & _ & V & _); rewrite Em in V; exact V).
  assert (GR : forall i, greville i 3 (ax_U a) = ((ax_U a (i+1) + ax_U a (i+2)%Z + ax_U a (i+3)%Z)/3)%R).
  { intros i. rewrite greville_eq by lia. change 3 with (0+1+1+1). rewrite !wsum_S, wsum_0 by lia.
    replace (i+0+1) with (i+1) by lia. replace (i+(0+1)+1) with (i+2) by lia. replace (i+(0+1+1)+1) with (i+(0+1+1+1)) by lia.
    change (IZR (0+1+1+1)) with 3%R. field. }
  assert (F0 : find_span (O:=Rord) 5 3 (greville 0 3 (ax_U a)) (ax_U a) = Some 3).
  { rewrite GR. apply (span_unique 3 9); auto; try lia. change (3+1) with 4. rewrite HU4, !HU0 by lia. lra. }
  assert (F2 : find_span (O:=Rord) 5 3 (greville 2 3 (ax_U a)) (ax_U a) = Some 3).
  { rewrite GR. apply (span_unique 3 9); auto; try lia. change (2+1) with 3. change (2+2) with 4. change (2+3) with 5. change (3+1) with 4. rewrite HU4, HU5, !HU0 by lia. lra. }
  assert (F3 : find_span (O:=Rord) 5 3 (greville 3 3 (ax_U a)) (ax_U a) = Some 5).
  { rewrite GR. apply (span_unique 3 9); auto; try lia. change (3+1) with 4. change (3+2) with 5. change (3+3) with 6. change (5+1) with 6. rewrite HU4, HU5, !HU6 by lia. lra. }
  assert (F5 : find_span (O:=Rord) 5 3 (greville 5 3 (ax_U a)) (ax_U a) = Some 5).
  { replace (greville 5 3 (ax_U a)) with (ax_U a (9-3)); [apply (span_end 3 9); auto; lia|].
    rewrite GR. rewrite !HU6 by lia. match goal with |- @eq _ ?x ?y => change (@eq R x y) end. field. }
  assert (FX : find_span (O:=Rord) 5 3 (201/2)%R (ax_U a) = Some 4).
  { apply (span_unique 3 9); auto; try lia. change (4+1) with 5. rewrite HU4, HU5. lra. }
  set (nd := fun r => if r =? 0 then mk_range 6 0 3 0 4 else mk_range 6 3 3 2 4).
  set (EE := mk_penv 1 1 1 (fun _ => a) (fun r _ => colloc_geom_range a 2 r 0 (nd r)) None None (pe_basis ex_E)).
  exists a, 0, nd, EE, (201/2)%R. split; [reflexivity|]. split; [exact Hwf|].
  split; [rewrite G2, Em; split; auto|]. split.
  { intros r Hr. split; [|reflexivity]. unfold colloc_node_range. rewrite En, G2, Em. change ((9-3-1+1-6)/2) with 0. change (9-3-1) with 5.
    assert (C : r = 0 \/ r = 1) by lia. destruct C as [-> | ->].
    - change (dist_s 2 6 0 + 0) with 0. change (dist_s 2 6 0 + dist_n 2 6 0 - 1 + 0) with 2. rewrite F0, F2. reflexivity.
    - change (dist_s 2 6 1 + 0) with 3. change (dist_s 2 6 1 + dist_n 2 6 1 - 1 + 0) with 5. rewrite F3, F5. reflexivity. }
  split; [reflexivity|]. split; [reflexivity|]. split.
  { intros d Hd. cbn [EE pe_axes]. rewrite G2, Em. change (9-3) with 6. rewrite HU0, HU6 by lia. lra. }
  intros St.
  assert (ID : forall r, 0 <= r < 2 -> pb_ID (locate EE r (fun _ => (201/2)%R) (St r)) 0 = 4).
  { intros r Hr. unfold locate. cbn [pb_set_loc pb_ID]. unfold pr_ID. change (pe_dim EE) with 1. change (0 <? 1) with true. cbv iota.
    cbn [EE pe_geom pe_axes]. unfold colloc_geom_range. rewrite G2, Em. change (9-3-1) with 5.
    replace (r_size _) with 6; [|destruct (r =? 0), (r =? 2-1); reflexivity]. change (6-1) with 5. rewrite FX. reflexivity. }
  assert (OFF : forall r, 0 <= r < 2 -> pb_off (locate EE r (fun _ => (201/2)%R) (St r)) = true).
  { intros r Hr. change (pb_off (locate EE r (fun _ => (201/2)%R) (St r))) with (pr_off EE r (pb_ID (locate EE r (fun _ => (201/2)%R) (St r)))).
    unfold pr_off. apply existsb_exists. exists 0. split; [apply in_zseq; cbn; lia|]. rewrite ID by exact Hr.
    unfold pr_p. change (0 <? pe_dim EE) with true. cbv iota zeta. cbn [EE pe_geom pe_axes]. rewrite G2. unfold colloc_geom_range. rewrite G2, Em.
    assert (C : r = 0 \/ r = 1) by lia. destruct C as [-> | ->]; reflexivity. }
  split; [exact OFF|]. intros HV. unfold set_point_all. cbv zeta.
  replace (root_of 2 _) with (-1).
  2:{ symmetry. unfold root_of. change (zseq 0 2) with [0;1]. cbn [fold_left]. rewrite !OFF by lia. reflexivity. }
  change (-1 <? 0) with true. change (zseq 0 2) with [0;1]. cbn [existsb andb EE pe_W pe_X]. destruct (pb_vec (St 0)); [reflexivity|contradiction].
Qed.
Print Assumptions C50_collocation_point_lost_refuted.
