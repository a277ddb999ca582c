(** C94-C98: IGASetFromOptions. *)
From Coq Require Import ZArith List Bool Reals Lia Lra FunctionalExtensionality.
From Verif Require Import Prelude RealOrd AxisModel AxisInitModel AxisInitProofs AxisProofs AxisProofs2 RuleModel OptModel OptSpec OptProofs OptProofs2 OptProofs3 OptProofs4 OptProofs5 OptProofs6 OptProofs7.
Import ListNotations.
Open Scope Z_scope.

(** The number of basis functions of a direction that is not periodic. *)
Lemma built_nnp : forall p N L C a, built false p N L C a -> ax_nnp a = N * (p - eff_C C p) + eff_C C p + 1.
Proof.
  intros p N L C a (U0 & a1 & a2 & H1 & H2 & H3).
  unfold axis_set_periodic in H1. injection H1 as <-. unfold axis_set_degree in H2. cbn in H2.
  destruct (p <? 1) eqn:Ep; [discriminate|]. injection H2 as <-.
  unfold axis_init_uniform in H3. cbn [ax_p] in H3. rewrite Ep in H3.
  destruct (N <? 1); [discriminate|]. destruct (negb _); [discriminate|]. fold (eff_C C p) in H3.
  destruct ((eff_C C p <? 0) || (p <=? eff_C C p)); [discriminate|]. injection H3 as <-.
  unfold init_body. cbn [ax_nnp ax_p ax_periodic]. ring.
Qed.

(** C94.  What the options make of an IGA before set-up, for all options (but -iga_load), all IGAs and all process counts.
    [built] says that the direction is what the axis routines of C03 and C04 make of the degree, the elements, the limits
    and the continuity.  Directions that have a mesh are rebuilt when elements or degrees are given. *)
Theorem C94_options : forall size lit read setup_again junk o g g',
  og_stage g = 0 -> og_setup g = false -> og_dim g <= 3 -> o_load o = false ->
  (forall l, o_limits o = Some l -> length l <> 1%nat) ->
  set_from_options size lit read setup_again junk o g = (Ok, g') ->
  let d := match o_dim o with Some d => d | None => og_dim g end in
  let dim := if 0 <? d then d else 3 in
  let a0 := og_axis g 0 in
  let p0 := or_else (ax_p a0) 2 in
  let N0 := if 1 <? ax_m a0 then ax_nel a0 else 16 in
  let L0 := if 1 <? ax_m a0 then (ax_U a0 (ax_p a0), ax_U a0 (ax_m a0 - ax_p a0)) else (0, 1)%R in
  og_dim g' = d /\ 1 <= dim <= 3 /\
  og_dof g' = match o_dof o with Some k => k | None => og_dof g end /\
  og_order g' = match o_order o with Some k => Z.max 1 (Z.min 4 k) | None => og_order g end /\
  og_colloc g' = match o_collocation o with Some c => c | None => og_colloc g end /\
  og_setup g' = false /\ og_stage g' = 0 /\
  (forall l i, o_processors o = Some l -> 0 <= i < dim -> i < Z.of_nat (length l) -> 0 < nth (Z.to_nat i) l 0 -> og_procs g' i = nth (Z.to_nat i) l 0) /\
  (o_processors o = None -> og_procs g' = og_procs g) /\
  (forall i, 0 <= i < dim ->
     let a := og_axis g i in let a' := og_axis g' i in
     let per := asked_periodic (ax_periodic a) (o_periodic o) i in
     let p := or_else (pick p0 (o_degree o) i) (or_else (ax_p a) 2) in
     let N := or_else (pick N0 (o_elements o) i) (if 1 <? ax_m a then ax_nel a else 16) in
     let L := pick L0 (option_map pairs (o_limits o)) i in
     let C := pick (match og_btype g' 0 with BSpline => -1 | _ => 0 end) (o_continuity o) i in
     (given (o_elements o) = true \/ given (o_degree o) = true \/ ~ has_mesh a -> built per p N L C a') /\
     (given (o_elements o) = false -> given (o_degree o) = false -> has_mesh a ->
        ax_periodic a' = per /\ ax_p a' = ax_p a /\ ax_m a' = ax_m a /\ ax_U a' = ax_U a /\ ax_nel a' = ax_nel a) /\
     og_btype g' i = per_direction (og_btype g i) (o_basis_type o) i /\
     ru_type (og_rule g' i) = per_direction (ru_type (og_rule g i)) (o_rule_type o) i /\
     (let own j r := or_else (ru_nqp r) (ax_p (og_axis g' j) + 1) in
      let q := pick (or_else (per_direction (own 0 (og_rule g 0)) (o_rule_size o) 0) (ax_p (og_axis g' 0) + 1)) (o_quadrature o) i in
      ru_nqp (og_rule g' i) =
        if given (o_quadrature o) && (0 <? q) then q
        else if given (o_rule_size o) then or_else (per_direction (own i (og_rule g i)) (o_rule_size o) i) (own i (og_rule g i))
        else ru_nqp (og_rule g i))) /\
  (forall i, ~ 0 <= i < dim -> og_axis g' i = og_axis g i /\ og_btype g' i = og_btype g i /\ og_rule g' i = og_rule g i).
Proof.
  intros size lit read setup_again junk o g g' Hst Hse H3 Hld Hl1 H d dim a0 p0 N0 L0.
  destruct (set_from_options_ok size lit read setup_again junk o g g' Hst Hse H3 Hld Hl1 H)
    as (P & al & be & ru & Eg' & Hd & Hdim & Hdof & Hord & Hcol & HP & HP0 & HA & HB & HR & HO).
  change (dim3 (new_dim o g)) with dim in *.
  assert (Ea : og_axis g' = al) by (rewrite Eg'; reflexivity). assert (Eb : og_btype g' = be) by (rewrite Eg'; reflexivity).
  assert (Er : og_rule g' = ru) by (rewrite Eg'; reflexivity). assert (Ep : og_procs g' = P) by (rewrite Eg'; reflexivity).
  rewrite Ea, Eb, Er, Ep.
  split; [rewrite Eg'; reflexivity|]. split; [exact Hd|]. do 5 (split; [rewrite Eg'; reflexivity|]). split; [|split; [exact HP0|split]].
  - intros l i El Hi Hl Hp. destruct (HP l El) as (K & _). apply K; [lia|exact Hp].
  - intros i Hi a a' per p N L C. destruct (HA i Hi) as (A1 & A2). fold a in A1, A2. destruct (HB i Hi) as (B1 & _).
    destruct (rule_result_facts lit _ _ _ _ _ (HR i Hi)) as (T1 & T2). cbn [og_axis og_rule] in T1, T2.
    split; [|split; [|split; [exact B1|split; [exact T1|exact T2]]]].
    + intros Hre. replace C with (asked_continuity o (be 0) i) by (unfold C, asked_continuity; destruct (be 0); reflexivity).
      apply A1. unfold rebuilt. destruct (given (o_elements o)); [reflexivity|]. destruct (given (o_degree o)); [reflexivity|]. cbn [orb].
      destruct Hre as [Hre|[Hre|Hre]]; try discriminate. unfold has_mesh in Hre.
      destruct (Z.eqb_spec (ax_p a) 0); [reflexivity|]. destruct (Z.eqb_spec (ax_m a) 1); [reflexivity|]. exfalso. apply Hre. auto.
    + intros He1 He2 (M1 & M2). unfold a'. rewrite A2; [cbn; repeat split; reflexivity|].
      unfold rebuilt. rewrite He1, He2. cbn [orb]. apply orb_false_iff. split; apply Z.eqb_neq; assumption.
  - intros i Hi. apply HO. exact Hi.
Qed.

(** The same for an IGA that has just been created. *)
Theorem C94_new : forall size lit read setup_again junk o g',
  o_load o = false -> (forall l, o_limits o = Some l -> length l <> 1%nat) ->
  set_from_options size lit read setup_again junk o new_iga = (Ok, g') ->
  forall i, 0 <= i < match o_dim o with Some d => d | None => 3 end ->
    let p := or_else (pick 2 (o_degree o) i) 2 in
    built (asked_periodic false (o_periodic o) i) p (or_else (pick 16 (o_elements o) i) 16)
          (pick (0, 1)%R (option_map pairs (o_limits o)) i) (pick (match per_direction BSpline (o_basis_type o) 0 with BSpline => -1 | _ => 0 end) (o_continuity o) i)
          (og_axis g' i) /\
    ax_p (og_axis g' i) = p /\
    og_btype g' i = per_direction BSpline (o_basis_type o) i /\
    ru_type (og_rule g' i) = per_direction RLegendre (o_rule_type o) i /\
    (o_quadrature o = None -> o_rule_size o = None -> ru_nqp (og_rule g' i) = 0) /\
    (forall l, o_quadrature o = Some l -> 0 < pick 0 (o_quadrature o) i -> ru_nqp (og_rule g' i) = pick 0 (o_quadrature o) i) /\
    (o_quadrature o = None -> given (o_rule_size o) = true -> ru_nqp (og_rule g' i) = or_else (per_direction (p + 1) (o_rule_size o) i) (p + 1)).
Proof.
  intros size lit read setup_again junk o g' Hld Hl1 H i Hi p.
  destruct (C94_options size lit read setup_again junk o new_iga g' eq_refl eq_refl ltac:(cbn; lia) Hld Hl1 H) as (E1 & E2 & _ & _ & _ & _ & _ & _ & _ & K & _).
  assert (Hi' : 0 <= i < (if 0 <? match o_dim o with Some d => d | None => og_dim new_iga end then match o_dim o with Some d => d | None => og_dim new_iga end else 3)).
  { destruct (o_dim o) as [d|]; [|exact Hi]. destruct (Z.ltb_spec 0 d); lia. }
  destruct (K i Hi') as (K1 & _ & K3 & K4 & K5). specialize (K1 ltac:(right; right; intros (M & _); apply M; reflexivity)).
  assert (E0 : og_btype g' 0 = per_direction BSpline (o_basis_type o) 0).
  { destruct (K 0 ltac:(lia)) as (_ & _ & K0 & _). exact K0. }
  rewrite E0 in K1. cbn in K1, K3, K4.
  destruct (built_facts _ _ _ _ _ _ K1) as (_ & _ & _ & F4 & _). fold p in F4, K1.
  split; [exact K1|]. split; [exact F4|]. split; [exact K3|]. split; [exact K4|]. cbv zeta in K5. split; [|split].
  - intros Q1 Q2. rewrite Q1, Q2 in K5. exact K5.
  - intros l Q1 Q2. assert (Hq : forall x, pick x (o_quadrature o) i = pick 0 (o_quadrature o) i).
    { intros x. rewrite Q1 in *. destruct l as [|y l]; [cbn in Q2; lia|reflexivity]. }
    rewrite Hq in K5. rewrite (proj2 (Z.ltb_lt 0 _) Q2) in K5. replace (given (o_quadrature o)) with true in K5 by (rewrite Q1; reflexivity). exact K5.
  - intros Q1 Q2. rewrite Q1, Q2 in K5. cbn [given andb] in K5. rewrite K5. rewrite F4. reflexivity.
Qed.

(** Mesh options that make sense are accepted. *)
Theorem C94_accepted : forall size lit read setup_again junk bt el de co li d g,
  1 <= d <= 3 -> set_dim d new_iga = (Ok, g) ->
  (forall l, li = Some l -> length l <> 1%nat) ->
  let o := mk_opts None None None None None false bt el de co li None None None None in
  (forall i, 0 <= i < d ->
     let p := or_else (pick 2 de i) 2 in
     let C := pick (match per_direction BSpline bt 0 with BSpline => -1 | _ => 0 end) co i in
     let L := pick (0, 1)%R (option_map pairs li) i in
     (fst L < snd L)%R /\ -1 <= C < p) ->
  exists g', set_from_options size lit read setup_again junk o g = (Ok, g').
Proof.
  intros size lit read setup_again junk bt el de co li d g Hd Hset Hl1 o HA.
  unfold set_dim in Hset. replace ((d <? 1) || (3 <? d)) with false in Hset by (symmetry; apply orb_false_iff; split; apply Z.ltb_ge; lia).
  cbn in Hset. injection Hset as <-.
  destruct (accepts size lit read setup_again junk bt el de co li (with_dim d new_iga) eq_refl eq_refl ltac:(cbn; lia) eq_refl Hl1) as (g' & E & _).
  - assert (Ed : dim_or_3 (with_dim d new_iga) = d) by (unfold dim_or_3; cbn; rewrite (proj2 (Z.ltb_lt 0 d)) by lia; reflexivity).
    rewrite Ed. intros i Hi _. destruct (HA i Hi) as (A1 & A2).
    unfold asked_degree, asked_elements, asked_limits, asked_continuity, first_degree, first_elements, first_limits. cbn [o_degree o_elements o_limits o_continuity mesh_options].
    cbn [og_axis with_dim new_iga ax_p ax_m axis_reset axis_create Z.ltb Z.compare or_else og_btype] in *.
    change (or_else 0 2) with 2. set (p := or_else (pick 2 de i) 2) in *.
    assert (Hp : 1 <= p) by (unfold p, or_else; destruct (Z.ltb_spec 0 (pick 2 de i)); lia).
    split; [exact Hp|]. split; [match goal with |- 1 <= or_else ?x ?y => change y with 16; unfold or_else; match goal with |- context [0 <? ?z] => destruct (Z.ltb_spec 0 z); lia end end|]. split; [exact A1|].
    replace (if btype_eqb (per_direction BSpline bt 0) BSpline then -1 else 0) with (match per_direction BSpline bt 0 with BSpline => -1 | _ => 0 end)
      by (destruct (per_direction BSpline bt 0); reflexivity).
    unfold eff_C, PETSC_DECIDE. destruct (Z.eqb_spec (pick (match per_direction BSpline bt 0 with BSpline => -1 | _ => 0 end) co i) (-1)); lia.
  - exists g'. exact E.
Qed.

(** -iga_dim 2 through the API. *)
Definition plane : oiga := with_dim 2 new_iga.
Lemma plane_ok : set_dim 2 new_iga = (Ok, plane). Proof. reflexivity. Qed.

(** A non-trivial use: -iga_elements 8,4 -iga_degree 3 -iga_limits 0,2 -iga_basis_type bernstein. *)
Example C94_example : forall size lit read setup_again junk,
  exists g', set_from_options size lit read setup_again junk
    (mk_opts None None None None None false (Some [Bernstein]) (Some [8; 4]) (Some [3]) None (Some [0; 2]%R) None None None None) plane = (Ok, g') /\
    built false 3 8 (0, 2)%R 0 (og_axis g' 0) /\ built false 3 4 (0, 2)%R 0 (og_axis g' 1) /\ ax_nnp (og_axis g' 1) = 13 /\
    og_btype g' 0 = Bernstein /\ og_btype g' 1 = Bernstein.
Proof.
  intros size lit read setup_again junk.
  destruct (C94_accepted size lit read setup_again junk (Some [Bernstein]) (Some [8; 4]) (Some [3]) None (Some [0; 2]%R) 2 plane ltac:(lia) plane_ok) as (g' & E).
  { intros l [= <-]. discriminate. }
  { intros i Hi. assert (Ei : i = 0 \/ i = 1) by lia. destruct Ei as [ -> | -> ]; (split; [cbv -[IZR Rlt]; lra|vm_compute; split; [discriminate|reflexivity]]). }
  exists g'. split; [exact E|]. set (o := mk_opts _ _ _ _ _ _ _ _ _ _ _ _ _ _ _) in E.
  destruct (C94_options size lit read setup_again junk o plane g' eq_refl eq_refl ltac:(cbn; lia) eq_refl ltac:(intros l [= <-]; discriminate) E)
    as (_ & _ & _ & _ & _ & _ & _ & _ & _ & K & _).
  destruct (K 0 ltac:(cbv; split; [discriminate|reflexivity])) as (K0 & _ & T0 & _). destruct (K 1 ltac:(cbv; split; [discriminate|reflexivity])) as (K1 & _ & T1 & _).
  specialize (K0 (or_introl eq_refl)). specialize (K1 (or_introl eq_refl)). rewrite T0 in K0, K1. cbn in K0, K1, T0, T1.
  split; [exact K0|]. split; [exact K1|]. split; [rewrite (built_nnp _ _ _ _ _ K1); reflexivity|]. auto.
Qed.

(** C95.  Without -iga_continuity a B-spline direction should get the full continuity of its degree and the other basis
    types, which interpolate at element boundaries or are defined by element, C0.  The code uses the default of the first
    direction for all of them. *)
Theorem C95_refuted : exists bt g', forall size lit read setup_again,
  let o := mk_opts None None None None None false (Some bt) (Some [4]) (Some [2]) None None None None None None in
  set_from_options size lit read setup_again (fun _ _ => 0%R) o plane = (Ok, g') /\
  og_btype g' 1 = BSpline /\ ax_p (og_axis g' 1) = 2 /\ ax_nel (og_axis g' 1) = 4 /\
  ax_nnp (og_axis g' 1) <> 4 + 2 /\ built false 2 4 (0, 1)%R 0 (og_axis g' 1).
Proof.
  exists [Lagrange; BSpline].
  destruct (C94_accepted 1 (fun _ => 0%R) (fun g => (Ok, g)) (fun g => (Ok, g)) (fun _ _ => 0%R) (Some [Lagrange; BSpline]) (Some [4]) (Some [2]) None None 2 plane ltac:(lia) plane_ok) as (g' & E).
  { discriminate. }
  { intros i Hi. assert (Ei : i = 0 \/ i = 1) by lia. destruct Ei as [ -> | -> ]; (split; [cbv -[IZR Rlt]; lra|vm_compute; split; [discriminate|reflexivity]]). }
  exists g'. intros size lit read setup_again o.
  assert (E' : set_from_options size lit read setup_again (fun _ _ => 0%R) o plane = (Ok, g')) by exact E.
  split; [exact E'|].
  destruct (C94_options size lit read setup_again _ o plane g' eq_refl eq_refl ltac:(cbn; lia) eq_refl ltac:(discriminate) E')
    as (_ & _ & _ & _ & _ & _ & _ & _ & _ & K & _).
  destruct (K 0 ltac:(cbv; split; [discriminate|reflexivity])) as (_ & _ & T0 & _). destruct (K 1 ltac:(cbv; split; [discriminate|reflexivity])) as (K1 & _ & T1 & _).
  specialize (K1 (or_introl eq_refl)). rewrite T0 in K1. cbn in K1, T0, T1.
  split; [exact T1|]. destruct (built_facts _ _ _ _ _ _ K1) as (_ & _ & _ & F4 & F5 & _).
  split; [exact F4|]. split; [exact F5|]. split; [|exact K1]. rewrite (built_nnp _ _ _ _ _ K1). unfold eff_C. cbn. discriminate.
Qed.
(** The other way round: a Lagrange direction gets a smooth knot vector. *)
Theorem C95_smooth_refuted : exists bt g', forall size lit read setup_again,
  let o := mk_opts None None None None None false (Some bt) (Some [4]) (Some [2]) None None None None None None in
  set_from_options size lit read setup_again (fun _ _ => 0%R) o plane = (Ok, g') /\
  og_btype g' 1 = Lagrange /\ ax_p (og_axis g' 1) = 2 /\ ax_nel (og_axis g' 1) = 4 /\
  ax_nnp (og_axis g' 1) <> 4 * 2 + 1 /\ built false 2 4 (0, 1)%R (-1) (og_axis g' 1).
Proof.
  exists [BSpline; Lagrange].
  destruct (C94_accepted 1 (fun _ => 0%R) (fun g => (Ok, g)) (fun g => (Ok, g)) (fun _ _ => 0%R) (Some [BSpline; Lagrange]) (Some [4]) (Some [2]) None None 2 plane ltac:(lia) plane_ok) as (g' & E).
  { discriminate. }
  { intros i Hi. assert (Ei : i = 0 \/ i = 1) by lia. destruct Ei as [ -> | -> ]; (split; [cbv -[IZR Rlt]; lra|vm_compute; split; [discriminate|reflexivity]]). }
  exists g'. intros size lit read setup_again o.
  assert (E' : set_from_options size lit read setup_again (fun _ _ => 0%R) o plane = (Ok, g')) by exact E.
  split; [exact E'|].
  destruct (C94_options size lit read setup_again _ o plane g' eq_refl eq_refl ltac:(cbn; lia) eq_refl ltac:(discriminate) E')
    as (_ & _ & _ & _ & _ & _ & _ & _ & _ & K & _).
  destruct (K 0 ltac:(cbv; split; [discriminate|reflexivity])) as (_ & _ & T0 & _). destruct (K 1 ltac:(cbv; split; [discriminate|reflexivity])) as (K1 & _ & T1 & _).
  specialize (K1 (or_introl eq_refl)). rewrite T0 in K1. cbn in K1, T0, T1.
  split; [exact T1|]. destruct (built_facts _ _ _ _ _ _ K1) as (_ & _ & _ & F4 & F5 & _).
  split; [exact F4|]. split; [exact F5|]. split; [|exact K1]. rewrite (built_nnp _ _ _ _ _ K1). unfold eff_C. cbn. discriminate.
Qed.
(** It holds when all directions have the kind of the first one. *)
Theorem C95_one_kind_partial : forall size lit read setup_again junk o g g',
  og_stage g = 0 -> og_setup g = false -> og_dim g <= 3 -> o_load o = false -> o_continuity o = None ->
  (forall l, o_limits o = Some l -> length l <> 1%nat) ->
  set_from_options size lit read setup_again junk o g = (Ok, g') ->
  let d := og_dim g' in let dim := if 0 <? d then d else 3 in
  (forall i, 0 <= i < dim -> og_btype g' i = BSpline <-> og_btype g' 0 = BSpline) ->
  forall i, 0 <= i < dim -> ~ has_mesh (og_axis g i) \/ given (o_elements o) = true \/ given (o_degree o) = true ->
  exists per p N L, built per p N L (match og_btype g' i with BSpline => p - 1 | _ => 0 end) (og_axis g' i).
Proof.
  intros size lit read setup_again junk o g g' Hst Hse H3 Hld Hco Hl1 H d dim Hk i Hi Hre.
  destruct (C94_options size lit read setup_again junk o g g' Hst Hse H3 Hld Hl1 H) as (E1 & E2 & _ & _ & _ & _ & _ & _ & _ & K & _).
  unfold dim, d in Hi, Hk. rewrite E1 in Hi, Hk. destruct (K i Hi) as (K1 & _). specialize (K1 ltac:(tauto)). rewrite Hco in K1. cbn [pick] in K1.
  match type of K1 with built ?per ?p ?N ?L ?C _ => exists per, p, N, L; set (p' := p) in *; set (N' := N) in *; set (L' := L) in * end.
  specialize (Hk i Hi).
  assert (G : forall C C' a, built (asked_periodic (ax_periodic (og_axis g i)) (o_periodic o) i) p' N' L' C a -> C = -1 -> C' = p' - 1 ->
     built (asked_periodic (ax_periodic (og_axis g i)) (o_periodic o) i) p' N' L' C' a).
  { intros C C' a (U0 & a1 & a2 & B1 & B2 & B3) -> ->. exists U0, a1, a2. split; [exact B1|]. split; [exact B2|].
    rewrite <- B3. assert (Ep : ax_p a2 = p').
    { unfold axis_set_degree in B2. destruct (p' <? 1); [discriminate|]. destruct (_ && _) in B2; [discriminate|]. injection B2 as <-. reflexivity. }
    unfold axis_init_uniform. rewrite Ep. change (-1 =? PETSC_DECIDE) with true. unfold PETSC_DECIDE.
    destruct (Z.eqb_spec (p' - 1) (-1)); reflexivity. }
  destruct (og_btype g' i) eqn:Ei; destruct (og_btype g' 0) eqn:E0;
    try exact K1; try (exfalso; destruct Hk as (Hk1 & Hk2); first [discriminate (Hk1 eq_refl)|discriminate (Hk2 eq_refl)]).
  apply (G (-1)); auto.
Qed.

(** C96.  An IGA whose directions have their meshes is not changed when no options are given. *)
Theorem C96_meshes_partial : forall size lit read setup_again junk g,
  og_stage g = 0 -> og_setup g = false -> og_dim g <= 3 -> og_colloc g = false ->
  (forall i, 0 <= i < (if 0 <? og_dim g then og_dim g else 3) -> has_mesh (og_axis g i)) ->
  set_from_options size lit read setup_again junk no_options g = (Ok, g).
Proof.
  intros size lit read setup_again junk g Hst Hse H3 Hco HM.
  assert (Hno : forall i, 0 <= i < dim_or_3 g -> rebuilt (mesh_options None None None None None) (og_axis g i) = false).
  { intros i Hi. destruct (HM i Hi) as (M1 & M2). unfold rebuilt. cbn. apply orb_false_iff. split; apply Z.eqb_neq; assumption. }
  destruct (accepts size lit read setup_again junk None None None None None g Hst Hse H3 Hco ltac:(discriminate)) as (g' & E & EQ).
  { intros i Hi Hr. rewrite Hno in Hr by exact Hi. discriminate. }
  rewrite (EQ eq_refl Hno) in E. exact E.
Qed.

(** Degrees set with IGAAxisSetDegree before IGASetFromOptions. *)
Definition degrees_2_3 : oiga :=
  with_axis 1 (snd (axis_set_degree 3 (og_axis plane 1))) (with_axis 0 (snd (axis_set_degree 2 (og_axis plane 0))) plane).

Theorem C96_refuted : exists g g', forall size lit read setup_again,
  set_from_options size lit read setup_again (fun _ _ => 0%R) no_options g = (Ok, g') /\
  og_dim g = 2 /\ ax_p (og_axis g 1) = 3 /\ ax_p (og_axis g' 1) = 2.
Proof.
  exists degrees_2_3.
  destruct (accepts 1 (fun _ => 0%R) (fun g => (Ok, g)) (fun g => (Ok, g)) (fun _ _ => 0%R) None None None None None degrees_2_3 eq_refl eq_refl ltac:(cbn; lia) eq_refl ltac:(discriminate)) as (g' & E & _).
  { intros i Hi _. change (dim_or_3 degrees_2_3) with 2 in Hi. assert (Ei : i = 0 \/ i = 1) by lia. unfold eff_C, asked_continuity. destruct Ei as [ -> | -> ]; (split; [cbv; discriminate|split; [cbv; discriminate|split; [cbv -[IZR Rlt]; lra|cbv; split; [discriminate|reflexivity]]]]). }
  exists g'. intros size lit read setup_again.
  assert (E' : set_from_options size lit read setup_again (fun _ _ => 0%R) no_options degrees_2_3 = (Ok, g')) by exact E.
  split; [exact E'|]. split; [reflexivity|]. split; [reflexivity|].
  destruct (C94_options size lit read setup_again _ no_options degrees_2_3 g' eq_refl eq_refl ltac:(cbn; lia) eq_refl ltac:(discriminate) E')
    as (_ & _ & _ & _ & _ & _ & _ & _ & _ & K & _).
  destruct (K 1 ltac:(cbv; split; [discriminate|reflexivity])) as (K1 & _). specialize (K1 ltac:(right; right; intros (_ & M); apply M; reflexivity)).
  destruct (built_facts _ _ _ _ _ _ K1) as (_ & _ & _ & F4 & _). rewrite F4. reflexivity.
Qed.

(** Also on an IGA with meshes: -iga_elements alone replaces the degree and the limits of the second direction. *)
Theorem C96_elements_refuted : exists g, forall size lit read setup_again,
  let o := mk_opts None None None None None false None (Some [8; 8]) None None None None None None None in
  exists g', set_from_options size lit read setup_again (fun _ _ => 0%R) o g = (Ok, g') /\
  built false 2 4 (0, 1)%R (-1) (og_axis g 0) /\ built false 3 4 (0, 5)%R (-1) (og_axis g 1) /\
  built false 2 8 (0, 1)%R (-1) (og_axis g' 1).
Proof.
  set (o1 := mk_opts None None None None None false None (Some [4; 4]) (Some [2; 3]) None (Some [0; 1; 0; 5]%R) None None None None).
  destruct (C94_accepted 1 (fun _ => 0%R) (fun g => (Ok, g)) (fun g => (Ok, g)) (fun _ _ => 0%R) None (Some [4; 4]) (Some [2; 3]) None (Some [0; 1; 0; 5]%R) 2 plane ltac:(lia) plane_ok) as (g & E).
  { intros l [= <-]. discriminate. }
  { intros i Hi. assert (Ei : i = 0 \/ i = 1) by lia. destruct Ei as [ -> | -> ]; (split; [cbv -[IZR Rlt]; lra|vm_compute; split; [discriminate|reflexivity]]). }
  fold o1 in E. exists g.
  destruct (C94_options 1 (fun _ => 0%R) (fun g => (Ok, g)) (fun g => (Ok, g)) _ o1 plane g eq_refl eq_refl ltac:(cbn; lia) eq_refl ltac:(intros l [= <-]; discriminate) E)
    as (Ed & _ & _ & _ & Ec & Es & Est & _ & _ & K & _).
  destruct (K 0 ltac:(cbv; split; [discriminate|reflexivity])) as (K0 & _ & T0 & _). destruct (K 1 ltac:(cbv; split; [discriminate|reflexivity])) as (K1 & _ & T1 & _).
  specialize (K0 (or_introl eq_refl)). specialize (K1 (or_introl eq_refl)). rewrite T0 in K0, K1. cbn in K0, K1, Ed, Ec, T0.
  destruct (built_facts _ _ _ _ _ _ K0) as (_ & _ & P0 & F4 & F5 & F6 & F7 & F8).
  destruct (built_facts _ _ _ _ _ _ K1) as (_ & _ & P1 & _).
  set (o2 := mk_opts None None None None None false None (Some [8; 8]) None None None None None None None).
  assert (HL : first_limits g = (0, 1)%R).
  { unfold first_limits. rewrite (proj2 (Z.ltb_lt 1 _)) by lia. rewrite F7, F8. reflexivity. }
  assert (HD : first_degree g = 2) by (unfold first_degree; rewrite F4; reflexivity).
  intros size lit read setup_again o.
  destruct (accepts size lit read setup_again (fun _ _ => 0%R) None (Some [8; 8]) None None None g Est Es ltac:(rewrite Ed; lia) Ec ltac:(discriminate)) as (g' & E2 & _).
  { unfold dim_or_3. rewrite Ed. change (if 0 <? 2 then 2 else 3) with 2. intros i Hi _.
    unfold asked_degree, asked_elements, asked_limits, asked_continuity, eff_C. rewrite HL, HD. cbn [pick option_map mesh_options o_degree o_elements o_limits o_continuity per_direction]. rewrite T0. cbn [btype_eqb].
    assert (Ei : i = 0 \/ i = 1) by lia. destruct Ei as [ -> | -> ]; (split; [cbv; discriminate|split; [cbv; discriminate|split; [cbv -[IZR Rlt]; lra|cbv; split; [discriminate|reflexivity]]]]). }
  exists g'.
  assert (E' : set_from_options size lit read setup_again (fun _ _ => 0%R) o g = (Ok, g')) by exact E2.
  split; [exact E'|]. split; [exact K0|]. split; [exact K1|].
  destruct (C94_options size lit read setup_again _ o g g' Est Es ltac:(rewrite Ed; lia) eq_refl ltac:(discriminate) E')
    as (_ & _ & _ & _ & _ & _ & _ & _ & _ & J & _). change (match o_dim o with Some d => d | None => og_dim g end) with (og_dim g) in J. rewrite Ed in J.
  destruct (J 1 ltac:(cbv; split; [discriminate|reflexivity])) as (J1 & _). destruct (J 0 ltac:(cbv; split; [discriminate|reflexivity])) as (_ & _ & JT & _). specialize (J1 (or_introl eq_refl)).
  rewrite JT in J1. cbn in JT, J1. rewrite T0 in J1. rewrite (proj2 (Z.ltb_lt 1 (ax_m (og_axis g 0)))) in J1 by lia. rewrite F7, F8, F4, P1 in J1. exact J1.
Qed.

(** C97.  -iga_limits and -iga_continuity are used when elements or degrees are given or directions have no mesh (C94);
    otherwise they are read and dropped. *)
Theorem C97_ignored : forall size lit read setup_again junk co li g,
  og_stage g = 0 -> og_setup g = false -> og_dim g <= 3 -> og_colloc g = false ->
  (forall l, li = Some l -> length l <> 1%nat) ->
  (forall i, 0 <= i < (if 0 <? og_dim g then og_dim g else 3) -> has_mesh (og_axis g i)) ->
  set_from_options size lit read setup_again junk (mk_opts None None None None None false None None None co li None None None None) g = (Ok, g).
Proof.
  intros size lit read setup_again junk co li g Hst Hse H3 Hco Hl1 HM.
  assert (Hno : forall i, 0 <= i < dim_or_3 g -> rebuilt (mesh_options None None None co li) (og_axis g i) = false).
  { intros i Hi. destruct (HM i Hi) as (M1 & M2). unfold rebuilt. cbn. apply orb_false_iff. split; apply Z.eqb_neq; assumption. }
  destruct (accepts size lit read setup_again junk None None None co li g Hst Hse H3 Hco Hl1) as (g' & E & EQ).
  { intros i Hi Hr. rewrite Hno in Hr by exact Hi. discriminate. }
  rewrite (EQ eq_refl Hno) in E. exact E.
Qed.

Theorem C97_refuted : exists g, forall size lit read setup_again junk,
  built false 2 4 (0, 1)%R (-1) (og_axis g 0) /\ built false 2 4 (0, 1)%R (-1) (og_axis g 1) /\ og_dim g = 2 /\
  set_from_options size lit read setup_again junk
    (mk_opts None None None None None false None None None (Some [0]) (Some [0; 7]%R) None None None None) g = (Ok, g).
Proof.
  set (o1 := mk_opts None None None None None false None (Some [4]) (Some [2]) None None None None None None).
  destruct (C94_accepted 1 (fun _ => 0%R) (fun g => (Ok, g)) (fun g => (Ok, g)) (fun _ _ => 0%R) None (Some [4]) (Some [2]) None None 2 plane ltac:(lia) plane_ok) as (g & E).
  { discriminate. }
  { intros i Hi. assert (Ei : i = 0 \/ i = 1) by lia. destruct Ei as [ -> | -> ]; (split; [cbv -[IZR Rlt]; lra|vm_compute; split; [discriminate|reflexivity]]). }
  fold o1 in E. exists g.
  destruct (C94_options 1 (fun _ => 0%R) (fun g => (Ok, g)) (fun g => (Ok, g)) _ o1 plane g eq_refl eq_refl ltac:(cbn; lia) eq_refl ltac:(discriminate) E)
    as (Ed & _ & _ & _ & Ec & Es & Est & _ & _ & K & _).
  destruct (K 0 ltac:(cbv; split; [discriminate|reflexivity])) as (K0 & _ & T0 & _). destruct (K 1 ltac:(cbv; split; [discriminate|reflexivity])) as (K1 & _ & T1 & _).
  specialize (K0 (or_introl eq_refl)). specialize (K1 (or_introl eq_refl)). rewrite T0 in K0, K1. cbn in K0, K1, Ed, Ec, T0.
  destruct (built_facts _ _ _ _ _ _ K0) as (_ & _ & _ & F4 & _ & F6 & _).
  destruct (built_facts _ _ _ _ _ _ K1) as (_ & _ & _ & G4 & _ & G6 & _).
  intros size lit read setup_again junk. split; [exact K0|]. split; [exact K1|]. split; [exact Ed|].
  apply C97_ignored; auto; [rewrite Ed; lia|intros l [= <-]; discriminate|].
  rewrite Ed. change (if 0 <? 2 then 2 else 3) with 2. intros i Hi. assert (Ei : i = 0 \/ i = 1) by lia.
  destruct Ei as [ -> | -> ]; (split; [rewrite ?F4, ?G4; discriminate|lia]).
Qed.

(** With a file to load, a mesh option cannot have an effect; it is never accepted. *)
Theorem C97_file : forall size lit read setup_again junk o g g',
  og_stage g = 0 -> o_load o = true ->
  set_from_options size lit read setup_again junk o g = (Ok, g') ->
  o_elements o = None /\ o_degree o = None /\ o_continuity o = None /\ o_limits o = None /\ exists h h', read h = (Ok, h').
Proof.
  intros size lit read setup_again junk o g g' Hst HL H. unfold set_from_options in H. destruct (axis_defaults g (dim_or_3 g)) as [[degrs elems] ulims].
  rewrite Hst in H. change (0 =? 0) with true in H. cbv iota in H. apply bind_ok in H. destruct H as (h & H & _).
  unfold options_before_setup in H. do 5 (apply bind_ok in H; destruct H as (? & _ & H)). rewrite HL in H. apply bind_ok in H. destruct H as (k & Hr & Hread).
  unfold reject in Hr. destruct (o_elements o), (o_degree o), (o_continuity o), (o_limits o); cbn in Hr; try discriminate.
  repeat split; auto. exists k, h. exact Hread.
Qed.
Example C97_file_example : forall size lit setup_again junk,
  fst (set_from_options size lit (fun g => (Ok, g)) setup_again junk (mk_opts None None None None None true None None None None (Some [0; 1]%R) None None None None) plane) = ErrRange /\
  set_from_options size lit (fun g => (Ok, g)) setup_again junk (mk_opts None None None None None true None None None None None None None None None) plane = (Ok, plane).
Proof. intros. split; reflexivity. Qed.

(** C98.  Calling IGASetFromOptions again before set-up changes nothing. *)
Theorem C98_again : forall size lit read setup_again junk junk' o g g',
  og_stage g = 0 -> og_setup g = false -> og_dim g <= 3 -> o_load o = false ->
  (forall l, o_limits o = Some l -> length l <> 1%nat) ->
  (forall i, 0 <= ax_p (og_axis g i)) -> rules_available lit g ->
  set_from_options size lit read setup_again junk o g = (Ok, g') ->
  exists g'', set_from_options size lit read setup_again junk' o g' = (Ok, g'') /\ same_iga g'' g'.
Proof. intros size lit read setup_again junk junk' o g g'. apply again. Qed.

Example C98_example : forall size lit read setup_again junk junk',
  let o := mk_opts None None None None None false (Some [Lagrange; BSpline]) (Some [8; 4]) (Some [3]) None (Some [0; 2]%R) None None None None in
  exists g' g'', set_from_options size lit read setup_again junk o plane = (Ok, g') /\
                 set_from_options size lit read setup_again junk' o g' = (Ok, g'') /\ same_iga g'' g' /\ ax_nel (og_axis g'' 1) = 4.
Proof.
  intros size lit read setup_again junk junk' o.
  destruct (C94_accepted size lit read setup_again junk (Some [Lagrange; BSpline]) (Some [8; 4]) (Some [3]) None (Some [0; 2]%R) 2 plane ltac:(lia) plane_ok) as (g' & E).
  { intros l [= <-]. discriminate. }
  { intros i Hi. assert (Ei : i = 0 \/ i = 1) by lia. destruct Ei as [ -> | -> ]; (split; [cbv -[IZR Rlt]; lra|vm_compute; split; [discriminate|reflexivity]]). }
  destruct (C98_again size lit read setup_again junk junk' o plane g' eq_refl eq_refl ltac:(cbn; lia) eq_refl) as (g'' & E2 & S).
  { intros l [= <-]. discriminate. }
  { intros i. cbn. lia. }
  { intros i Hi. cbn in Hi. lia. }
  { exact E. }
  exists g', g''. split; [exact E|]. split; [exact E2|]. split; [exact S|].
  destruct S as (_ & _ & _ & _ & _ & S & _). destruct (S 1) as (_ & _ & _ & _ & S1 & _). rewrite S1.
  destruct (C94_options size lit read setup_again junk o plane g' eq_refl eq_refl ltac:(cbn; lia) eq_refl ltac:(intros l [= <-]; discriminate) E)
    as (_ & _ & _ & _ & _ & _ & _ & _ & _ & K & _).
  destruct (K 1 ltac:(cbv; split; [discriminate|reflexivity])) as (K1 & _). specialize (K1 (or_introl eq_refl)).
  destruct (built_facts _ _ _ _ _ _ K1) as (_ & _ & _ & _ & F5 & _). exact F5.
Qed.

Print Assumptions C94_options.
Print Assumptions C94_new.
Print Assumptions C94_accepted.
Print Assumptions C95_refuted.
Print Assumptions C96_refuted.
Print Assumptions C97_refuted.
Print Assumptions C98_again.
Print Assumptions C97_file.
