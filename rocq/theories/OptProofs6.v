From Coq Require Import ZArith List Bool Reals Lia Lra FunctionalExtensionality.
From Verif Require Import Prelude RealOrd AxisModel AxisInitModel AxisInitProofs AxisProofs AxisProofs2 RuleModel OptModel OptSpec OptProofs OptProofs2 OptProofs3 OptProofs4 OptProofs5.
Import ListNotations.
Open Scope Z_scope.

Lemma per_direction_idem : forall A (x : A) o i, per_direction (per_direction x o i) o i = per_direction x o i.
Proof.
  intros A x o i. destruct o as [[|a [|b l]]|]; try reflexivity.
  - cbn [per_direction]. destruct (Z.to_nat i); reflexivity.
  - cbn [per_direction]. destruct (Nat.lt_ge_cases (Z.to_nat i) (length (a :: b :: l))) as [H|H].
    + apply nth_indep. exact H.
    + rewrite !(nth_overflow (a :: b :: l)) by exact H. reflexivity.
Qed.
Lemma per_direction_cases : forall A (o : option (list A)) i, (forall x y, per_direction x o i = per_direction y o i) \/ (forall x, per_direction x o i = x).
Proof.
  intros A o i. destruct o as [[|a [|b l]]|]; [right|left|idtac|right]; try reflexivity.
  - intros x. cbn [per_direction]. destruct (Z.to_nat i); reflexivity.
  - cbn [per_direction]. destruct (Nat.lt_ge_cases (Z.to_nat i) (length (a :: b :: l))) as [H|H].
    + left. intros x y. apply nth_indep. exact H.
    + right. intros x. apply nth_overflow. exact H.
Qed.
Lemma asked_periodic_idem : forall x o i, asked_periodic (asked_periodic x o i) o i = asked_periodic x o i.
Proof. intros x o i. unfold asked_periodic. destruct o as [[|b l]|]; try reflexivity. apply (per_direction_idem bool x (Some (b :: l)) i). Qed.
Lemma pick_cases : forall A (o : option (list A)) i, (forall x y, pick x o i = pick y o i) \/ (forall x, pick x o i = x) /\ (forall j x, pick x o j = x).
Proof. intros A o i. destruct o as [[|a l]|]; [right|left|right]; try split; reflexivity. Qed.
Lemma or_else_pos : forall x y, 0 < x -> or_else x y = x.
Proof. intros x y H. unfold or_else. rewrite (proj2 (Z.ltb_lt 0 x) H). reflexivity. Qed.

Lemma or_else_again : forall x y, or_else x (or_else (or_else x (or_else y 2)) 2) = or_else x (or_else y 2).
Proof.
  intros x y. unfold or_else. destruct (0 <? x) eqn:Ex; [reflexivity|]. destruct (0 <? y) eqn:Ey; [rewrite Ey|]; reflexivity.
Qed.

Section Again.
  Variables (size : Z) (lit : Z -> R) (read setup_again : oiga -> status * oiga).

  (** Asking a second time for the same mesh. *)
  Lemma mesh_again : forall o (ax ax' : Z -> axis Rord) g g' t0 dim i U1,
    og_axis g = ax -> og_axis g' = ax' -> 1 <= dim -> 0 <= i < dim ->
    given (o_elements o) || given (o_degree o) = true ->
    (forall j, 0 <= j < dim -> axis_asked o g t0 j (ax' j)) ->
    exists a2, bind (axis_set_periodic (ax_periodic (ax' i)) axis_reset) (fun b =>
          bind (axis_set_degree (asked_degree o (first_degree g') i (ax' i)) b)
            (axis_init_uniform (asked_elements o (first_elements g') i (ax' i))
               (fst (asked_limits o (first_limits g') i)) (snd (asked_limits o (first_limits g') i))
               (asked_continuity o t0 i) U1)) = (Ok, a2) /\ same_axis a2 (ax' i).
  Proof.
    intros o ax ax' g g' t0 dim i U1 Eg Eg' Hd Hi Hfl HA.
    assert (Hb : forall j, 0 <= j < dim -> built (asked_periodic (ax_periodic (ax j)) (o_periodic o) j) (asked_degree o (first_degree g) j (ax j))
              (asked_elements o (first_elements g) j (ax j)) (asked_limits o (first_limits g) j) (asked_continuity o t0 j) (ax' j)).
    { intros j Hj. destruct (HA j Hj) as (B & _). rewrite Eg in B. apply B. unfold rebuilt. rewrite Hfl. reflexivity. }
    pose proof (Hb i Hi) as Bi. pose proof (Hb 0 ltac:(lia)) as B0.
    destruct (built_facts _ _ _ _ _ _ Bi) as (F1 & F2 & F3 & F4 & F5 & F6 & _ & _).
    destruct (built_facts _ _ _ _ _ _ B0) as (G1 & G2 & _ & G4 & G5 & G6 & G7 & G8).
    assert (E1 : asked_degree o (first_degree g') i (ax' i) = asked_degree o (first_degree g) i (ax i)).
    { revert F1 G1 F4 G4. unfold asked_degree, first_degree. rewrite Eg', Eg. intros F1 G1 F4 G4. rewrite F4.
      destruct (pick_cases Z (o_degree o) i) as [K|(K & K')].
      - rewrite (K _ (or_else (ax_p (ax 0)) 2)). apply or_else_again.
      - rewrite K, K. rewrite K' in G4. rewrite G4. set (q := or_else (ax_p (ax 0)) 2) in *.
        assert (Hq : 0 < q) by (unfold q, or_else; destruct (Z.ltb_spec 0 (ax_p (ax 0))); lia).
        repeat (rewrite (or_else_pos q) by exact Hq). reflexivity. }
    assert (E2 : asked_elements o (first_elements g') i (ax' i) = asked_elements o (first_elements g) i (ax i)).
    { revert F2 G2 F5 G5. unfold asked_elements, first_elements. rewrite Eg', Eg. intros F2 G2 F5 G5.
      rewrite (proj2 (Z.ltb_lt 1 (ax_m (ax' i)))), (proj2 (Z.ltb_lt 1 (ax_m (ax' 0)))) by lia. rewrite F5, G5.
      set (N0 := if 1 <? ax_m (ax 0) then ax_nel (ax 0) else 16) in *.
      destruct (pick_cases Z (o_elements o) i) as [K|(K & K')].
      - rewrite (K _ N0). set (x := pick N0 (o_elements o) i) in *. clearbody x. unfold or_else in *.
        destruct (0 <? x); reflexivity.
      - rewrite K, K. rewrite K' in G2 |- *.
        assert (Hp : 0 < N0) by (unfold or_else in G2; destruct (Z.ltb_spec 0 N0); [assumption|lia]).
        rewrite !(or_else_pos N0) by exact Hp. reflexivity. }
    assert (E3 : asked_limits o (first_limits g') i = asked_limits o (first_limits g) i).
    { unfold asked_limits. destruct (pick_cases (R * R) (option_map pairs (o_limits o)) i) as [K|(K & K')]; [apply K|].
      rewrite !K. unfold first_limits at 1. rewrite Eg'. rewrite (proj2 (Z.ltb_lt 1 (ax_m (ax' 0)))) by lia.
      unfold asked_limits in G7, G8. rewrite K' in G7, G8. rewrite G7, G8. destruct (first_limits g); reflexivity. }
    rewrite E1, E2, E3, F3. apply built_again. exact Bi.
  Qed.

  Lemma quadrature_again : forall o g i r r0' p0 P,
    given (o_quadrature o) = true ->
    rule_result lit o g 0 (og_rule g 0) = (Ok, r0') -> p0 = ax_p (og_axis g 0) -> 1 <= p0 -> r = og_rule g 0 -> P = i ->
    asked_quadrature o i r0' p0 = asked_quadrature o i r p0.
  Proof.
    intros o g i r r0' p0 P Hq H Ep Hp -> _. apply rule_result_facts in H. cbv zeta in H. rewrite <- Ep in H. destruct H as (_ & HN).
    rewrite Hq in HN. cbn [andb] in HN. unfold asked_quadrature in *.
    destruct (pick_cases Z (o_quadrature o) i) as [K|(K & K')]; [apply K|]. rewrite !K. rewrite K' in HN.
    assert (Hpos : 0 < or_else (asked_size o 0 (og_rule g 0) p0) (p0 + 1)).
    { unfold or_else. destruct (Z.ltb_spec 0 (asked_size o 0 (og_rule g 0) p0)); lia. }
    rewrite (proj2 (Z.ltb_lt _ _) Hpos) in HN.
    unfold asked_size in *. destruct (per_direction_cases Z (o_rule_size o) 0) as [J|J].
    - rewrite (J _ (own_size (og_rule g 0) p0)). reflexivity.
    - rewrite !J in *. unfold own_size in HN |- * at 1. rewrite HN.
      rewrite (or_else_pos (own_size (og_rule g 0) p0)) in * by (unfold own_size, or_else; destruct (Z.ltb_spec 0 (ru_nqp (og_rule g 0))); lia).
      repeat (rewrite (or_else_pos (own_size (og_rule g 0) p0)) by exact Hpos). reflexivity.
  Qed.

  Theorem again : forall junk junk' o g g',
    og_stage g = 0 -> og_setup g = false -> og_dim g <= 3 -> o_load o = false ->
    (forall l, o_limits o = Some l -> length l <> 1%nat) ->
    (forall i, 0 <= ax_p (og_axis g i)) -> rules_available lit g ->
    set_from_options size lit read setup_again junk o g = (Ok, g') ->
    exists g'', set_from_options size lit read setup_again junk' o g' = (Ok, g'') /\ same_iga g'' g'.
  Proof.
    intros junk junk' o g g' Hst Hse H3 Hld Hl1 Hp0 Hra H.
    destruct (set_from_options_ok size lit read setup_again junk o g g' Hst Hse H3 Hld Hl1 H)
      as (P & al & be & ru & Eg' & Hd & Hdim & Hdof & Hord & Hcol & HP & HP0 & HA & HB & HR & HO).
    clear H. set (dim := dim3 (new_dim o g)) in *.
    assert (Hpal : forall i, 0 <= i < dim -> 1 <= ax_p (al i)).
    { intros i Hi. destruct (HA i Hi) as (A1 & A2). destruct (rebuilt o (og_axis g i)) eqn:Er.
      - destruct (built_facts _ _ _ _ _ _ (A1 eq_refl)) as (F1 & _ & _ & F4 & _). lia.
      - rewrite A2 by reflexivity. cbn. unfold rebuilt in Er. apply orb_false_iff in Er. destruct Er as (_ & Er).
        apply orb_false_iff in Er. destruct Er as (Er & _). apply Z.eqb_neq in Er. specialize (Hp0 i). lia. }
    assert (Hper : forall i, 0 <= i < dim -> asked_periodic (ax_periodic (al i)) (o_periodic o) i = ax_periodic (al i)).
    { intros i Hi. destruct (HA i Hi) as (A1 & A2). destruct (rebuilt o (og_axis g i)) eqn:Er.
      - destruct (built_facts _ _ _ _ _ _ (A1 eq_refl)) as (_ & _ & F3 & _). rewrite F3. apply asked_periodic_idem.
      - rewrite A2 by reflexivity. cbn. apply asked_periodic_idem. }
    assert (Hdg : dim_or_3 g' = dim) by (rewrite Eg'; reflexivity).
    assert (Hsg : og_setup g' = false) by (rewrite Eg'; reflexivity).
    assert (Hstg : og_stage g' = 0) by (rewrite Eg'; reflexivity).
    unfold set_from_options. cbv zeta. rewrite Hstg, Hsg, Hdg. change (0 =? 0) with true. cbn iota.
    destruct (axis_defaults g' dim) as [[degrs elems] ulims] eqn:ED.
    destruct (axis_defaults_0 g' dim degrs elems ulims ltac:(lia) ED) as (D1 & D2 & D3).
    (* the mesh *)
    destruct (opt_mesh_form junk' o (fun i => if (0 <=? i) && (i <? dim) then og_btype g' i else BSpline) degrs elems ulims g'
                ltac:(rewrite Hdg; lia) Hl1) as (f & Ef & Hcw).
    rewrite Hdg in Hcw, Ef.
    set (F := fun i a => if rebuilt o a then _ else _) in Hcw.
    assert (HF : forall i, 0 <= i < dim -> exists a2, F i (al i) = (Ok, a2) /\ same_axis a2 (al i)).
    { intros i Hi. unfold F, rebuilt.
      destruct (given (o_elements o) || given (o_degree o)) eqn:Efl; cbn [orb].
      - rewrite D1, D2, D3. fold (first_degree g') (first_elements g') (first_limits g').
        rewrite (inside_in basis_type (og_btype g') BSpline dim 0) by lia.
        replace (per_direction (og_btype g' 0) (o_basis_type o) 0) with (be 0).
        2:{ rewrite Eg'. cbn [og_btype]. destruct (HB 0 ltac:(lia)) as (-> & _). symmetry. apply per_direction_idem. }
        apply (mesh_again o (og_axis g) al g g' (be 0) dim i (junk' i)); auto; [rewrite Eg'; reflexivity|lia].
      - destruct (HA i Hi) as (A1 & A2).
        assert (Hno : (ax_p (al i) =? 0) || (ax_m (al i) =? 1) = false).
        { destruct (rebuilt o (og_axis g i)) eqn:Er.
          - destruct (built_facts _ _ _ _ _ _ (A1 eq_refl)) as (F1 & _ & _ & F4 & _ & F6 & _).
            apply orb_false_iff. split; apply Z.eqb_neq; lia.
          - rewrite A2 by reflexivity. unfold rebuilt in Er. rewrite Efl in Er. exact Er. }
        rewrite Hno. exists (al i). split; [reflexivity|]. unfold same_axis. repeat split; reflexivity. }
    set (k := fun i => snd (F i (al i))).
    assert (Hk : forall i, 0 <= i < dim -> F i (al i) = (Ok, k i) /\ same_axis (k i) (al i)).
    { intros i Hi. destruct (HF i Hi) as (a2 & E & S). unfold k. rewrite E. auto. }
    destruct (cw_total _ _ _ _ (og_axis g') k Hcw (NoDup_zseq _ _)) as (al2 & EM & M1 & M2).
    { intros i Hi. apply in_zseq in Hi. rewrite Eg'. cbn [og_axis]. apply Hk. lia. }
    rewrite with_axes_own in EM.
    assert (Hsame : forall i, same_axis (al2 i) (al i)).
    { intros i. destruct (in_dec Z.eq_dec i (zseq 0 dim)) as [Hi|Hi].
      - rewrite M1 by exact Hi. apply in_zseq in Hi. apply Hk. lia.
      - rewrite M2 by exact Hi. rewrite Eg'. unfold same_axis. repeat split; reflexivity. }
    (* before set-up *)
    match goal with |- context [bind ?x _] => assert (EB : x = (Ok, with_axes al2 g')) end.
    { unfold options_before_setup.
      assert (K1 : opt_dim o g' = (Ok, g')).
      { unfold opt_dim. destruct (o_dim o) as [d|] eqn:Eo; [|reflexivity]. pose proof (Hdim d eq_refl) as Hd'.
        assert (Ed : og_dim g' = d) by (rewrite Eg'; cbn; unfold new_dim; rewrite Eo; reflexivity).
        unfold set_dim. rewrite Ed. replace ((d <? 1) || (3 <? d)) with false by (symmetry; apply orb_false_iff; split; apply Z.ltb_ge; lia).
        rewrite Z.eqb_refl. cbn [negb]. rewrite andb_false_r. f_equal. rewrite <- Ed. destruct g'; reflexivity. }
      assert (K2 : opt_dof o g' = (Ok, g')).
      { unfold opt_dof. destruct (o_dof o) as [d|] eqn:Eo; [|reflexivity]. pose proof (Hdof d eq_refl) as Hd'.
        assert (Ed : og_dof g' = d) by (rewrite Eg'; reflexivity).
        unfold set_dof. rewrite Ed. replace (d <? 1) with false by (symmetry; apply Z.ltb_ge; lia).
        rewrite Z.eqb_refl. cbn [negb]. rewrite andb_false_r. f_equal. rewrite <- Ed. destruct g'; reflexivity. }
      assert (K3 : opt_collocation o g' = (Ok, g')).
      { unfold opt_collocation. destruct (o_collocation o) as [c|] eqn:Eo.
        - assert (Ec : og_colloc g' = c) by (rewrite Eg'; reflexivity).
          assert (Es : set_collocation c g' = (Ok, g')).
          { unfold set_collocation. rewrite Hstg. cbn. f_equal. rewrite <- Ec. destruct g'; reflexivity. }
          rewrite Es. cbn [bind]. unfold reject. rewrite Ec. cbn [opt_or] in Hcol. rewrite Hcol. reflexivity.
        - cbn [bind]. unfold reject. replace (og_colloc g') with (og_colloc g) by (rewrite Eg'; reflexivity).
          cbn [opt_or] in Hcol. rewrite Hcol. reflexivity. }
      assert (K4 : forall pr, opt_processors size o pr g' = (Ok, g')).
      { intros pr. apply opt_processors_again; [exact Hsg|]. rewrite Hdg. rewrite Eg'. cbn [og_procs]. intros l El. exact (HP l El). }
      assert (K5 : opt_periodic o (fun i => if (0 <=? i) && (i <? dim) then ax_periodic (og_axis g' i) else false) g' = (Ok, g')).
      { unfold opt_periodic. rewrite Hdg.
        destruct (read_array (o_periodic o) dim (fun i => if (0 <=? i) && (i <? dim) then ax_periodic (og_axis g' i) else false)) as [[wr n] flg] eqn:ER.
        unfold when. destruct flg; [|reflexivity]. set (W := spread _ _ _).
        assert (Hcw2 : cw (fun al => with_axes al g')
           (fun i g => let '(s, a) := axis_set_periodic (W i) (og_axis g i) in (s, with_axis i a g)) (fun i a => axis_set_periodic (W i) a) (zseq 0 dim))
          by (intros i h _; reflexivity).
        destruct (cw_total _ _ _ _ (og_axis g') (og_axis g') Hcw2 (NoDup_zseq _ _)) as (al3 & E3 & T1 & T2).
        { intros i Hi. apply in_zseq in Hi. assert (Hi' : 0 <= i < dim) by lia. unfold axis_set_periodic. f_equal.
          unfold W. rewrite (read_wraps _ _ _ _ _ _ _ ER Hi' ltac:(lia)).
          rewrite (inside_in bool (fun i => ax_periodic (og_axis g' i)) false dim i Hi').
          replace (og_axis g' i) with (al i) by (rewrite Eg'; reflexivity). rewrite Hper by exact Hi'. apply flagged_own. }
        rewrite with_axes_own in E3. rewrite E3. f_equal. rewrite <- (with_axes_own g') at 2. f_equal.
        apply functional_extensionality. intros i. destruct (in_dec Z.eq_dec i (zseq 0 dim)) as [Hi|Hi]; [apply T1|apply T2]; exact Hi. }
      rewrite K1. cbn [bind]. rewrite K2. cbn [bind]. rewrite K3. cbn [bind]. rewrite K4. cbn [bind]. rewrite K5. cbn [bind]. rewrite Hld.
      rewrite Ef. exact EM. }
    rewrite EB. cbn [bind].
    set (h := with_axes al2 g').
    assert (EA : options_any_time lit o (fun i => if (0 <=? i) && (i <? dim) then og_btype g' i else BSpline)
       (fun i => if (0 <=? i) && (i <? dim) then ru_type (og_rule g' i) else RLegendre)
       (fun i => if (0 <=? i) && (i <? dim) then (if 0 <? ru_nqp (og_rule g' i) then ru_nqp (og_rule g' i) else PETSC_DECIDE) else PETSC_DECIDE) h = (Ok, h)).
    { unfold options_any_time. cbv zeta.
      assert (K1 : opt_order o h = (Ok, h)).
      { unfold opt_order. destruct (o_order o) as [q|] eqn:Eo; [|reflexivity]. unfold set_order.
        replace (q <? 0) with false by (symmetry; apply Z.ltb_ge; apply (Hord q eq_refl)). f_equal.
        replace (clip q 1 4) with (og_order h) by (unfold h; rewrite Eg'; reflexivity). destruct h; reflexivity. }
      rewrite K1. cbn [bind].
      assert (Hdh : dim_or_3 h = dim) by exact Hdg.
      assert (K2 : opt_basis_types o (fun i => if (0 <=? i) && (i <? dim) then og_btype g' i else BSpline) h = (Ok, h)).
      { unfold opt_basis_types, basis_types. rewrite Hdh.
        destruct (read_array (o_basis_type o) dim (fun i => if (0 <=? i) && (i <? dim) then og_btype g' i else BSpline)) as [[bt n] flg] eqn:ER.
        destruct (read_array_n _ _ _ _ _ _ _ ER) as (Hf & _). unfold when. destruct flg; [|reflexivity].
        destruct (cw_total _ _ _ _ (og_btype h) (og_btype h) (bt_cw (spread (true && (n =? 1)) dim bt) h (zseq 0 dim) Hsg) (NoDup_zseq _ _)) as (b3 & E3 & T1 & T2).
        { intros i Hi. apply in_zseq in Hi. assert (Hi' : 0 <= i < dim) by lia. unfold bt_F.
          rewrite (read_spread _ _ _ _ _ _ _ _ ER Hi' ltac:(lia)). rewrite (inside_in basis_type (og_btype g') BSpline dim i Hi').
          destruct (HB i Hi') as (B1 & B2).
          assert (Eb : per_direction (og_btype g' i) (o_basis_type o) i = be i) by (rewrite Eg'; cbn [og_btype]; rewrite B1; apply per_direction_idem).
          rewrite Eb. replace (og_btype h i) with (be i) by (unfold h; rewrite Eg'; reflexivity).
          replace (og_colloc h) with (opt_or (o_collocation o) (og_colloc g)) by (unfold h; rewrite Eg'; reflexivity).
          destruct (opt_or (o_collocation o) (og_colloc g)) eqn:Ec; [|reflexivity]. rewrite (B2 (eq_sym Hf) eq_refl). reflexivity. }
        rewrite with_btypes_own in E3. rewrite E3. f_equal. rewrite <- (with_btypes_own h) at 2. f_equal.
        apply functional_extensionality. intros i. destruct (in_dec Z.eq_dec i (zseq 0 dim)) as [Hi|Hi]; [apply T1|apply T2]; exact Hi. }
      rewrite K2. cbn [bind].
      apply opt_rules_quadrature_total.
      - rewrite Hdh. lia.
      - exact Hsg.
      - intros i Hi. rewrite Hdh in Hi. apply (inside_in rule_type (fun i => ru_type (og_rule g' i)) RLegendre dim i Hi).
      - intros i Hi. rewrite Hdh in Hi.
        apply (inside_in Z (fun i => if 0 <? ru_nqp (og_rule g' i) then ru_nqp (og_rule g' i) else PETSC_DECIDE) PETSC_DECIDE dim i Hi).
      - intros i Hi. rewrite Hdh in Hi.
        replace (og_rule h i) with (ru i) by (unfold h; rewrite Eg'; reflexivity).
        pose proof (HR i Hi) as Ri. pose proof (HR 0 ltac:(lia)) as R0.
        assert (Epi : ax_p (og_axis h i) = ax_p (al i)) by (apply (Hsame i)).
        assert (Ep0 : ax_p (og_axis h 0) = ax_p (al 0)) by (apply (Hsame 0)).
        unfold rule_result. cbv zeta. rewrite Epi, Ep0. replace (og_rule h 0) with (ru 0) by (unfold h; rewrite Eg'; reflexivity).
        destruct (rule_result_facts lit _ _ _ _ _ Ri) as (T & _).
        assert (Et : asked_type o i (ru i) = asked_type o i (og_rule g i)).
        { unfold asked_type at 1. rewrite T. unfold asked_type. apply per_direction_idem. }
        rewrite Et.
        assert (Eq : quad_F lit (given (o_quadrature o)) (asked_quadrature o i (ru 0) (ax_p (al 0)))
                     = quad_F lit (given (o_quadrature o)) (asked_quadrature o i (og_rule g 0) (ax_p (al 0)))).
        { destruct (given (o_quadrature o)) eqn:Egq; [|reflexivity]. f_equal.
          apply (quadrature_again o (mk_oiga 0 0 0 false P al be (og_rule g) false 0) i (og_rule g 0) (ru 0) (ax_p (al 0)) i); auto.
          apply Hpal. lia. }
        rewrite Eq.
        apply (rule_twice lit (given (o_rule_type o)) (given (o_rule_size o)) (given (o_quadrature o)) _ _ (ax_p (al i)) (og_rule g i) (ru i)
                 (asked_size o i (og_rule g i) (ax_p (al i)))).
        + apply Hpal. exact Hi.
        + apply Hra.
        + intros Ef'. unfold asked_type. destruct (o_rule_type o); [discriminate|reflexivity].
        + exact Ri.
        + unfold asked_size. destruct (per_direction_cases Z (o_rule_size o) i) as [J|J]; [left; apply J|right; rewrite !J; auto]. }
    rewrite EA. cbn [bind]. exists h. split; [reflexivity|]. unfold same_iga, h. do 4 (split; [reflexivity|]).
    split; [reflexivity|]. split; [intros i; rewrite Eg'; exact (Hsame i)|]. repeat (split; [reflexivity|]). reflexivity.
  Qed.
End Again.
