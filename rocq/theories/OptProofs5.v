From Coq Require Import ZArith List Bool Reals Lia Lra FunctionalExtensionality.
From Verif Require Import Prelude RealOrd AxisModel AxisInitModel AxisInitProofs AxisProofs AxisProofs2 RuleModel OptModel OptSpec OptProofs OptProofs2 OptProofs3 OptProofs4.
Import ListNotations.
Open Scope Z_scope.

Definition new_dim (o : opts) (g : oiga) : Z := opt_or (o_dim o) (og_dim g).
Definition dim3 (d : Z) : Z := if 0 <? d then d else 3.

(** The axis before and after the mesh options. *)
Definition axis_asked (o : opts) (g : oiga) (t0 : basis_type) (i : Z) (a' : axis Rord) : Prop :=
  let a := og_axis g i in
  let per := asked_periodic (ax_periodic a) (o_periodic o) i in
  (rebuilt o a = true ->
     built per (asked_degree o (first_degree g) i a) (asked_elements o (first_elements g) i a)
           (asked_limits o (first_limits g) i) (asked_continuity o t0 i) a') /\
  (rebuilt o a = false -> a' = flagged per a).

Definition procs_asked (size : Z) (o : opts) (dim : Z) (P0 P : Z -> Z) : Prop :=
  forall l, o_processors o = Some l ->
    let n := Z.min dim (Z.of_nat (length l)) in
    (forall i, 0 <= i < n -> 0 < nth (Z.to_nat i) l 0 -> P i = nth (Z.to_nat i) l 0) /\
    ((exists i, 0 <= i < n /\ 0 < nth (Z.to_nat i) l 0) -> size mod prod_pos P (zseq 0 dim) = 0).

Lemma oiga_ext : forall g a b c d e f h i j k, og_dim g = a -> og_dof g = b -> og_order g = c -> og_colloc g = d -> og_procs g = e ->
  og_axis g = f -> og_btype g = h -> og_rule g = i -> og_setup g = j -> og_stage g = k -> g = mk_oiga a b c d e f h i j k.
Proof. intros [] *; cbn. intros. subst. reflexivity. Qed.

  Lemma inside_in : forall A (x : Z -> A) d dim i, 0 <= i < dim -> (if (0 <=? i) && (i <? dim) then x i else d) = x i.
  Proof.
    intros A x d dim i Hi. replace (0 <=? i) with true by (symmetry; apply Z.leb_le; lia).
    replace (i <? dim) with true by (symmetry; apply Z.ltb_lt; lia). reflexivity.
  Qed.

Section Run.
  Variable size : Z.

  Lemma opt_processors_facts : forall o procs g g1, opt_processors size o procs g = (Ok, g1) ->
    exists P, g1 = with_procs P g /\ procs_asked size o (dim_or_3 g) (og_procs g) P /\ (o_processors o = None -> P = og_procs g).
  Proof.
    intros o procs g g1 H. unfold opt_processors in H.
    destruct (read_array (o_processors o) (dim_or_3 g) procs) as [[pr n] flg] eqn:ER.
    destruct (read_array_n _ _ _ _ _ _ _ ER) as (Hf & Hn). unfold when in H at 1. destruct flg.
    - destruct (o_processors o) as [l|] eqn:EO; [|discriminate].
      assert (Hle : n <= dim_or_3 g) by (rewrite Hn; lia).
      destruct (procs_run size pr g n g1 Hle H) as (P & E & K1 & K2). exists P. split; [exact E|]. split; [|discriminate].
      intros l' El. rewrite EO in El. injection El as <-. cbv zeta. rewrite <- Hn.
      assert (Hpr : forall i, 0 <= i < n -> pr i = nth (Z.to_nat i) l 0).
      { intros i Hi. rewrite (read_array_in _ _ _ _ _ _ _ _ ER Hi). apply nth_indep. lia. }
      split.
      + intros i Hi Hp. rewrite <- Hpr in * by exact Hi. apply K1; assumption.
      + intros (i & Hi & Hp). apply K2. exists i. rewrite Hpr by exact Hi. auto.
    - injection H as <-. exists (og_procs g). split; [destruct g; reflexivity|]. split; [|reflexivity].
      intros l E. rewrite E in Hf. discriminate.
  Qed.

  Lemma opt_processors_again : forall o procs g, og_setup g = false -> procs_asked size o (dim_or_3 g) (og_procs g) (og_procs g) ->
    opt_processors size o procs g = (Ok, g).
  Proof.
    intros o procs g Hs HP. unfold opt_processors.
    destruct (read_array (o_processors o) (dim_or_3 g) procs) as [[pr n] flg] eqn:ER.
    destruct (read_array_n _ _ _ _ _ _ _ ER) as (Hf & Hn). unfold when at 1. destruct flg; [|reflexivity].
    destruct (o_processors o) as [l|] eqn:EO; [|discriminate]. destruct (HP l EO) as (K1 & K2). rewrite <- Hn in K1, K2.
    assert (Hpr : forall i, 0 <= i < n -> pr i = nth (Z.to_nat i) l 0).
    { intros i Hi. rewrite (read_array_in _ _ _ _ _ _ _ _ ER Hi). apply nth_indep. lia. }
    apply procs_rerun; [lia|exact Hs| |].
    - intros i Hi Hp. rewrite Hpr in * by exact Hi. apply K1; assumption.
    - intros (i & Hi & Hp). apply K2. exists i. rewrite <- Hpr by exact Hi. auto.
  Qed.

  Variables (lit : Z -> R) (read setup_again : oiga -> status * oiga) (junk : Z -> Z -> R).

  Lemma set_from_options_ok : forall o g g', og_stage g = 0 -> og_setup g = false -> og_dim g <= 3 -> o_load o = false ->
    (forall l, o_limits o = Some l -> length l <> 1%nat) ->
    set_from_options size lit read setup_again junk o g = (Ok, g') ->
    let dim := dim3 (new_dim o g) in
    exists P al be ru,
      g' = mk_oiga (new_dim o g) (opt_or (o_dof o) (og_dof g)) (match o_order o with Some k => clip k 1 4 | None => og_order g end)
                   (opt_or (o_collocation o) (og_colloc g)) P al be ru false 0 /\
      1 <= dim <= 3 /\ (forall d, o_dim o = Some d -> 1 <= d <= 3) /\ (forall d, o_dof o = Some d -> 1 <= d) /\ (forall k, o_order o = Some k -> 0 <= k) /\
      opt_or (o_collocation o) (og_colloc g) && (given (o_rule_type o) || given (o_rule_size o) || given (o_quadrature o)) = false /\
      procs_asked size o dim (og_procs g) P /\ (o_processors o = None -> P = og_procs g) /\
      (forall i, 0 <= i < dim -> axis_asked o g (be 0) i (al i)) /\
      (forall i, 0 <= i < dim -> be i = per_direction (og_btype g i) (o_basis_type o) i /\
                                 (given (o_basis_type o) = true -> opt_or (o_collocation o) (og_colloc g) = true -> be i = BSpline)) /\
      (forall i, 0 <= i < dim -> rule_result lit o (mk_oiga 0 0 0 false P al be (og_rule g) false 0) i (og_rule g i) = (Ok, ru i)) /\
      (forall i, ~ 0 <= i < dim -> al i = og_axis g i /\ be i = og_btype g i /\ ru i = og_rule g i).
  Proof.
    intros o g g' Hst Hse H3 Hld Hl1 H dim. unfold set_from_options in H. cbv zeta in H. rewrite Hst, Hse in H. change (0 =? 0) with true in H.
    set (d0 := dim_or_3 g) in H. destruct (axis_defaults g d0) as [[degrs elems] ulims] eqn:ED.
    destruct (axis_defaults_0 g d0 degrs elems ulims (dim_or_3_pos g) ED) as (D1 & D2 & D3).
    apply bind_ok in H. destruct H as (gb & HB & H). apply bind_ok in H. destruct H as (ga & HA & H). injection H as ->.
    (* before set-up *)
    unfold options_before_setup in HB.
    apply bind_ok in HB. destruct HB as (g1 & H1 & HB). apply opt_dim_ok in H1. destruct H1 as (-> & Hdim).
    apply bind_ok in HB. destruct HB as (g1 & H1 & HB). apply opt_dof_ok in H1. destruct H1 as (-> & Hdof).
    apply bind_ok in HB. destruct HB as (g1 & H1 & HB). apply opt_collocation_ok in H1; [|exact Hst]. destruct H1 as (-> & Hcol).
    apply bind_ok in HB. destruct HB as (g1 & H1 & HB). apply opt_processors_facts in H1. destruct H1 as (P & -> & HP & HP0).
    apply bind_ok in HB. destruct HB as (g1 & H1 & HB).
    fold (new_dim o g) in *. cbn [og_dim og_dof og_colloc og_procs og_axis with_dim with_dof with_colloc] in *.
    match type of HP with procs_asked _ _ (dim_or_3 ?x) _ _ => change (dim_or_3 x) with dim in HP end.
    assert (Hd : 1 <= dim <= 3 /\ dim <= d0).
    { unfold dim, dim3, new_dim, d0, dim_or_3, opt_or. destruct (o_dim o) as [d|].
      - destruct (Hdim d eq_refl) as (Hd1 & Hd2). rewrite (proj2 (Z.ltb_lt 0 d)) by lia.
        destruct (Z.ltb_spec 0 (og_dim g)); [rewrite <- Hd2 by assumption|]; lia.
      - destruct (Z.ltb_spec 0 (og_dim g)); lia. }
    destruct Hd as (Hd & Hd0).
    apply opt_periodic_ok in H1.
    2:{ apply Hd. }
    2:{ intros i Hi. cbn [og_axis with_procs]. apply (inside_in bool (fun i => ax_periodic (og_axis g i))).
        match type of Hi with 0 <= i < dim_or_3 ?x => change (dim_or_3 x) with dim in Hi end. lia. }
    destruct H1 as (al1 & -> & HW1 & HW2).
    match type of HW1 with forall i, 0 <= i < dim_or_3 ?x -> _ => change (dim_or_3 x) with dim in HW1, HW2 end.
    cbn [og_axis with_procs] in HW1, HW2.
    rewrite Hld in HB. apply opt_mesh_ok in HB; [|apply Hd|exact Hl1].
    destruct HB as (al & -> & HM1 & HM2).
    match type of HM1 with forall i, 0 <= i < dim_or_3 ?x -> _ => change (dim_or_3 x) with dim in HM1, HM2 end.
    cbn [og_axis with_procs with_axes] in HM1, HM2.
    (* any time *)
    unfold options_any_time in HA. cbv zeta in HA.
    apply bind_ok in HA. destruct HA as (g1 & H1 & HA). apply opt_order_ok in H1. destruct H1 as (-> & Hord).
    apply bind_ok in HA. destruct HA as (g1 & H1 & HA). apply opt_basis_types_ok in H1.
    2:{ apply Hd. }
    2:{ exact Hse. }
    2:{ intros i Hi. cbn [og_btype]. apply (inside_in basis_type (og_btype g)).
        match type of Hi with 0 <= i < dim_or_3 ?x => change (dim_or_3 x) with dim in Hi end. lia. }
    destruct H1 as (be & -> & HE1 & HE2).
    match type of HE1 with forall i, 0 <= i < dim_or_3 ?x -> _ => change (dim_or_3 x) with dim in HE1, HE2 end.
    apply opt_rules_quadrature_ok in HA.
    2:{ apply Hd. }
    2:{ exact Hse. }
    2:{ intros i Hi. cbn [og_rule]. apply (inside_in rule_type (fun i => ru_type (og_rule g i))).
        match type of Hi with 0 <= i < dim_or_3 ?x => change (dim_or_3 x) with dim in Hi end. lia. }
    2:{ intros i Hi. cbn [og_rule].
        apply (inside_in Z (fun i => if 0 <? ru_nqp (og_rule g i) then ru_nqp (og_rule g i) else PETSC_DECIDE)).
        match type of Hi with 0 <= i < dim_or_3 ?x => change (dim_or_3 x) with dim in Hi end. lia. }
    destruct HA as (ru & -> & HR1 & HR2).
    match type of HR1 with forall i, 0 <= i < dim_or_3 ?x -> _ => change (dim_or_3 x) with dim in HR1, HR2 end.
    exists P, al, be, ru. split.
    { apply oiga_ext; try reflexivity; [exact Hse|exact Hst]. }
    split; [exact Hd|]. split; [intros d Hd'; apply (Hdim d Hd')|]. split; [exact Hdof|]. split; [exact Hord|]. split; [exact Hcol|].
    split; [exact HP|]. split; [exact HP0|].
    split; [|split; [exact HE1|split; [exact HR1|]]].
    - intros i Hi. destruct (HM1 i Hi) as (M1 & M2). rewrite (HW1 i Hi) in M1, M2.
      unfold axis_asked. cbv zeta. destruct (HE1 0 ltac:(lia)) as (E0 & _). rewrite E0.
      split.
      + intros Hr. specialize (M1 Hr). rewrite D1, D2, D3 in M1.
        cbn [ax_periodic flagged] in M1.
        rewrite (inside_in basis_type (og_btype g) BSpline d0 0) in M1 by lia. exact M1.
      + intros Hr. exact (M2 Hr).
    - intros i Hi. split; [rewrite HM2, HW2 by exact Hi; reflexivity|]. split; [apply (HE2 i Hi)|apply (HR2 i Hi)].
  Qed.
End Run.
