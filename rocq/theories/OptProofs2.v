From Coq Require Import ZArith List Bool Reals Lia Lra FunctionalExtensionality.
From Verif Require Import Prelude RealOrd AxisModel AxisInitModel AxisInitProofs AxisProofs AxisProofs2 RuleModel OptModel OptSpec OptProofs.
Import ListNotations.
Open Scope Z_scope.

Definition with_axes v g := mk_oiga (og_dim g) (og_dof g) (og_order g) (og_colloc g) (og_procs g) v (og_btype g) (og_rule g) (og_setup g) (og_stage g).
Definition with_btypes v g := mk_oiga (og_dim g) (og_dof g) (og_order g) (og_colloc g) (og_procs g) (og_axis g) v (og_rule g) (og_setup g) (og_stage g).
Definition with_rules v g := mk_oiga (og_dim g) (og_dof g) (og_order g) (og_colloc g) (og_procs g) (og_axis g) (og_btype g) v (og_setup g) (og_stage g).
Definition flagged (b : bool) (a : axis Rord) : axis Rord :=
  @mk_axis Rord b (ax_p a) (ax_m a) (ax_U a) (ax_nnp a) (ax_nel a) (ax_span a).

Lemma upd_id : forall A (f : Z -> A) i, upd f i (f i) = f.
Proof. intros A f i. apply functional_extensionality. intros x. unfold upd. destruct (Z.eqb_spec x i); subst; reflexivity. Qed.
Lemma upd_id_eq : forall A (f : Z -> A) i a, a = f i -> upd f i a = f.
Proof. intros A f i a ->. apply upd_id. Qed.
Lemma flagged_own : forall a, flagged (ax_periodic a) a = a.
Proof. intros []. reflexivity. Qed.
Lemma with_axes_own : forall g, with_axes (og_axis g) g = g.
Proof. intros []. reflexivity. Qed.
Lemma with_btypes_own : forall g, with_btypes (og_btype g) g = g.
Proof. intros []. reflexivity. Qed.
Lemma with_rules_own : forall g, with_rules (og_rule g) g = g.
Proof. intros []. reflexivity. Qed.

Lemma dim_or_3_pos : forall g, 1 <= dim_or_3 g.
Proof. intros g. unfold dim_or_3. destruct (0 <? og_dim g) eqn:E; [apply Z.ltb_lt in E|]; lia. Qed.

Lemma or_else_lt : forall x y, (if x <? 1 then y else x) = or_else x y.
Proof. intros x y. unfold or_else. destruct (Z.ltb_spec x 1), (Z.ltb_spec 0 x); try lia; reflexivity. Qed.

Definition opt_or {A} (o : option A) (d : A) : A := match o with Some x => x | None => d end.

Section Blocks.
  Lemma opt_dim_ok : forall o g g1, opt_dim o g = (Ok, g1) ->
    g1 = with_dim (opt_or (o_dim o) (og_dim g)) g /\
    (forall d, o_dim o = Some d -> 1 <= d <= 3 /\ (0 < og_dim g -> og_dim g = d)).
  Proof.
    intros o g g1 H. unfold opt_dim in H. destruct (o_dim o) as [d|]; cbn [opt_or].
    - unfold set_dim in H. destruct ((d <? 1) || (3 <? d)) eqn:E1; [discriminate|].
      apply orb_false_iff in E1. destruct E1 as (E1 & E2). apply Z.ltb_ge in E1. apply Z.ltb_ge in E2.
      destruct ((0 <? og_dim g) && negb (og_dim g =? d)) eqn:E3; [discriminate|]. injection H as <-.
      split; [reflexivity|]. intros d' [= <-]. split; [lia|]. intros Hg.
      apply andb_false_iff in E3. destruct E3 as [E3|E3]; [apply Z.ltb_ge in E3; lia|].
      apply negb_false_iff, Z.eqb_eq in E3. exact E3.
    - injection H as <-. split; [destruct g; reflexivity|discriminate].
  Qed.

  Lemma opt_dof_ok : forall o g g1, opt_dof o g = (Ok, g1) ->
    g1 = with_dof (opt_or (o_dof o) (og_dof g)) g /\ (forall d, o_dof o = Some d -> 1 <= d).
  Proof.
    intros o g g1 H. unfold opt_dof in H. destruct (o_dof o) as [d|]; cbn [opt_or].
    - unfold set_dof in H. destruct (d <? 1) eqn:E1; [discriminate|]. apply Z.ltb_ge in E1.
      destruct ((0 <? og_dof g) && negb (og_dof g =? d)) eqn:E3; [discriminate|]. injection H as <-.
      split; [reflexivity|]. intros d' [= <-]. lia.
    - injection H as <-. split; [destruct g; reflexivity|discriminate].
  Qed.

  Lemma opt_collocation_ok : forall o g g1, og_stage g = 0 -> opt_collocation o g = (Ok, g1) ->
    g1 = with_colloc (opt_or (o_collocation o) (og_colloc g)) g /\
    og_colloc g1 && (given (o_rule_type o) || given (o_rule_size o) || given (o_quadrature o)) = false.
  Proof.
    intros o g g1 Hst H. unfold opt_collocation in H. apply bind_ok in H. destruct H as (g0 & H0 & H).
    unfold reject in H. destruct (og_colloc g0 && _) eqn:E; [discriminate|]. injection H as <-.
    split; [|exact E]. destruct (o_collocation o) as [c|]; cbn [opt_or].
    - unfold set_collocation in H0. rewrite Hst in H0. cbn in H0. injection H0 as <-. reflexivity.
    - injection H0 as <-. destruct g; reflexivity.
  Qed.

  Lemma opt_processors_ok : forall size o procs g g1, opt_processors size o procs g = (Ok, g1) -> exists P, g1 = with_procs P g.
  Proof.
    intros size o procs g g1 H. unfold opt_processors in H.
    destruct (read_array (o_processors o) (dim_or_3 g) procs) as [[pr n] flg]. unfold when in H at 1.
    destruct flg; [|injection H as <-; exists (og_procs g); destruct g; reflexivity].
    assert (G : forall l g0 P, g0 = with_procs P g ->
      for_each l (fun i => when (0 <? pr i) (set_processors size i (pr i))) g0 = (Ok, g1) -> exists P, g1 = with_procs P g).
    2:{ apply (G (zseq 0 n) g (og_procs g)); [destruct g; reflexivity|exact H]. }
    clear H. induction l as [|i l IH]; intros g0 P -> H.
    - cbn in H. injection H as <-. eauto.
    - rewrite for_each_cons in H. apply bind_ok in H. destruct H as (g2 & H2 & H). 
      assert (E : exists P', g2 = with_procs P' g); [|destruct E as (P' & E); exact (IH _ _ E H)].
      unfold when in H2. destruct (0 <? pr i); [|injection H2 as <-; eauto].
      unfold set_processors in H2. destruct (og_setup (with_procs P g)); [discriminate|]. destruct (pr i <? 1); [discriminate|].
      destruct (negb _); [discriminate|]. destruct (negb _); [discriminate|]. injection H2 as <-. eexists. reflexivity.
  Qed.

  Lemma opt_periodic_ok : forall o wraps g g1, dim_or_3 g <= 3 -> opt_periodic o wraps g = (Ok, g1) ->
    (forall i, 0 <= i < dim_or_3 g -> wraps i = ax_periodic (og_axis g i)) ->
    exists al, g1 = with_axes al g /\
      (forall i, 0 <= i < dim_or_3 g -> al i = flagged (asked_periodic (ax_periodic (og_axis g i)) (o_periodic o) i) (og_axis g i)) /\
      (forall i, ~ 0 <= i < dim_or_3 g -> al i = og_axis g i).
  Proof.
    intros o wraps g g1 H3 H Hw. unfold opt_periodic in H. set (dim := dim_or_3 g) in *.
    destruct (read_array (o_periodic o) dim wraps) as [[wr n] flg] eqn:ER.
    destruct (read_array_n _ _ _ _ _ _ _ ER) as (Hf & _).
    unfold when in H. destruct flg.
    - set (W := spread _ _ _) in H.
      assert (Hcw : cw (fun al => with_axes al g)
         (fun i g => let '(s, a) := axis_set_periodic (W i) (og_axis g i) in (s, with_axis i a g)) (fun i a => axis_set_periodic (W i) a) (zseq 0 dim)).
      { intros i h _. reflexivity. }
      rewrite <- (with_axes_own g) in H at 1.
      destruct (cw_run _ _ _ _ _ _ Hcw (NoDup_zseq _ _) H) as (al & E & E1 & E2).
      exists al. split; [exact E|]. split.
      + intros i Hi. specialize (E1 i). rewrite in_zseq in E1. specialize (E1 ltac:(lia)). unfold axis_set_periodic in E1.
        injection E1 as <-. rewrite <- Hw by exact Hi. rewrite <- (read_wraps _ _ _ _ _ _ _ ER Hi H3). reflexivity.
      + intros i Hi. apply E2. rewrite in_zseq. lia.
    - injection H as <-. exists (og_axis g). split; [symmetry; apply with_axes_own|]. split; [|reflexivity].
      intros i Hi. destruct (o_periodic o); [discriminate|]. cbn. symmetry. apply flagged_own.
  Qed.

  Section Mesh.
  Variable junk : Z -> Z -> R.

  (** One direction of the mesh. *)
  Definition mesh_F (flg : bool) (nd ne nc nl : Z) (degrs elems conts : Z -> Z) (ulims : Z -> R * R) (i : Z) (a : axis Rord) : status * axis Rord :=
    let p := if i <? nd then degrs i else degrs 0 in
    let N := if i <? ne then elems i else elems 0 in
    let L := if i <? nl then ulims i else ulims 0 in
    let C := if i <? nc then conts i else conts 0 in
    let p := if p <? 1 then (if 0 <? ax_p a then ax_p a else 2) else p in
    let N := if N <? 1 then (if 1 <? ax_m a then ax_nel a else 16) else N in
    if flg || ((ax_p a =? 0) || (ax_m a =? 1)) then
      bind (axis_set_periodic (ax_periodic a) axis_reset) (fun a =>
      bind (axis_set_degree p a) (axis_init_uniform N (fst L) (snd L) C (junk i)))
    else (Ok, a).

  Lemma mesh_cw : forall flg nd ne nc nl degrs elems conts ulims g l,
    cw (fun al => with_axes al g) (init_direction junk flg nd ne nc nl degrs elems conts ulims)
       (mesh_F flg nd ne nc nl degrs elems conts ulims) l.
  Proof.
    intros flg nd ne nc nl degrs elems conts ulims g l i h _. unfold init_direction, mesh_F.
    change (og_axis (with_axes h g) i) with (h i).
    destruct (flg || _); [unfold reinit_axis; match goal with |- (let '(s, a) := ?X in _) = _ => destruct X as [s a] end; reflexivity|].
    rewrite upd_id. reflexivity.
  Qed.

  Definition first_degree (g : oiga) : Z := or_else (ax_p (og_axis g 0)) 2.
  Definition first_elements (g : oiga) : Z := if 1 <? ax_m (og_axis g 0) then ax_nel (og_axis g 0) else 16.
  Definition first_limits (g : oiga) : R * R :=
    if 1 <? ax_m (og_axis g 0) then (ax_U (og_axis g 0) (ax_p (og_axis g 0)), ax_U (og_axis g 0) (ax_m (og_axis g 0) - ax_p (og_axis g 0))) else (0, 1)%R.
  Definition asked_degree (o : opts) (p0 : Z) (i : Z) (a : axis Rord) : Z := or_else (pick p0 (o_degree o) i) (or_else (ax_p a) 2).
  Definition asked_elements (o : opts) (N0 : Z) (i : Z) (a : axis Rord) : Z := or_else (pick N0 (o_elements o) i) (if 1 <? ax_m a then ax_nel a else 16).
  Definition asked_continuity (o : opts) (t0 : basis_type) (i : Z) : Z := pick (if btype_eqb t0 BSpline then -1 else 0) (o_continuity o) i.
  Definition asked_limits (o : opts) (L0 : R * R) (i : Z) : R * R := pick L0 (option_map pairs (o_limits o)) i.
  Definition rebuilt (o : opts) (a : axis Rord) : bool := (given (o_elements o) || given (o_degree o)) || ((ax_p a =? 0) || (ax_m a =? 1)).

  (** The loop over the directions in terms of what is asked. *)
  Lemma opt_mesh_form : forall o btype degrs elems ulims g, dim_or_3 g <= 3 ->
    (forall l, o_limits o = Some l -> length l <> 1%nat) ->
    exists f, opt_mesh junk o btype degrs elems ulims g = for_each (zseq 0 (dim_or_3 g)) f g /\
      cw (fun al => with_axes al g) f
       (fun i a => if rebuilt o a then
          bind (axis_set_periodic (ax_periodic a) axis_reset) (fun b =>
          bind (axis_set_degree (asked_degree o (degrs 0) i a) b)
            (axis_init_uniform (asked_elements o (elems 0) i a)
               (fst (asked_limits o (ulims 0) i)) (snd (asked_limits o (ulims 0) i))
               (asked_continuity o (per_direction (btype 0) (o_basis_type o) 0) i) (junk i)))
        else (Ok, a)) (zseq 0 (dim_or_3 g)).
  Proof.
    intros o btype degrs elems ulims g H3 H1. unfold opt_mesh, basis_types. set (dim := dim_or_3 g) in *.
    assert (Hd : 1 <= dim) by apply dim_or_3_pos.
    destruct (read_array (o_basis_type o) dim btype) as [[bt nb] flgb] eqn:EB.
    set (bts := spread (flgb && (nb =? 1)) dim bt).
    assert (Hb0 : bts 0 = per_direction (btype 0) (o_basis_type o) 0) by (apply (read_spread _ _ _ _ _ _ _ _ EB); lia).
    destruct (read_array (o_elements o) dim elems) as [[el ne] flg1] eqn:EE.
    destruct (read_array (o_degree o) dim degrs) as [[de nd] flg2] eqn:ED.
    set (conts := fun i => if (i <? dim) && (i <? 3) && negb (btype_eqb (bts i) BSpline) then 0 else PETSC_DECIDE).
    assert (Hc0 : conts 0 = if btype_eqb (per_direction (btype 0) (o_basis_type o) 0) BSpline then -1 else 0).
    { unfold conts. rewrite Hb0. replace (0 <? dim) with true by (symmetry; apply Z.ltb_lt; lia).
      change (0 <? 3) with true. destruct (btype_eqb _ _); reflexivity. }
    destruct (read_array (o_continuity o) dim conts) as [[co nc] flg3] eqn:EC.
    destruct (read_limits (o_limits o) dim ulims) as [ul nl] eqn:EL.
    destruct (read_array_n _ _ _ _ _ _ _ EE) as (Hf1 & _). destruct (read_array_n _ _ _ _ _ _ _ ED) as (Hf2 & _).
    eexists. split; [reflexivity|]. intros i h Hi.
    rewrite (mesh_cw _ _ _ _ _ _ _ _ _ g _ i h Hi). apply in_zseq in Hi.
    assert (Hi' : 0 <= i < dim) by lia. unfold mesh_F. rewrite !or_else_lt.
    rewrite (read_pick _ _ _ _ _ _ _ _ ED Hi'), (read_pick _ _ _ _ _ _ _ _ EE Hi'), (read_pick _ _ _ _ _ _ _ _ EC Hi'),
      (read_limits_pick _ _ _ _ _ _ EL Hi' H1), Hc0. subst flg1 flg2. reflexivity.
  Qed.

  Lemma reinit_built : forall per p N L C U0 a', bind (axis_set_periodic per axis_reset) (fun b => bind (axis_set_degree p b) (axis_init_uniform N (fst L) (snd L) C U0)) = (Ok, a') ->
    built per p N L C a'.
  Proof.
    intros per p N L C U0 a' H. apply bind_ok in H. destruct H as (a1 & H1 & H). apply bind_ok in H. destruct H as (a2 & H2 & H).
    exists U0, a1, a2. auto.
  Qed.

  Lemma opt_mesh_ok : forall o btype degrs elems ulims g g1, dim_or_3 g <= 3 ->
    (forall l, o_limits o = Some l -> length l <> 1%nat) ->
    opt_mesh junk o btype degrs elems ulims g = (Ok, g1) ->
    exists al, g1 = with_axes al g /\
      (forall i, 0 <= i < dim_or_3 g -> let a := og_axis g i in
         (rebuilt o a = true -> built (ax_periodic a) (asked_degree o (degrs 0) i a) (asked_elements o (elems 0) i a) (asked_limits o (ulims 0) i)
                                  (asked_continuity o (per_direction (btype 0) (o_basis_type o) 0) i) (al i)) /\
         (rebuilt o a = false -> al i = a)) /\
      (forall i, ~ 0 <= i < dim_or_3 g -> al i = og_axis g i).
  Proof.
    intros o btype degrs elems ulims g g1 H3 H1 H. destruct (opt_mesh_form o btype degrs elems ulims g H3 H1) as (f & Ef & Hcw).
    rewrite Ef in H. rewrite <- (with_axes_own g) in H at 2.
    destruct (cw_run _ _ _ _ _ _ Hcw (NoDup_zseq _ _) H) as (al & E & E1 & E2).
    exists al. split; [exact E|]. split.
    - intros i Hi a. specialize (E1 i). rewrite in_zseq in E1. specialize (E1 ltac:(lia)). fold a in E1. split; intros Hr; rewrite Hr in E1.
      + apply reinit_built in E1. exact E1.
      + injection E1 as <-. reflexivity.
    - intros i Hi. apply E2. rewrite in_zseq. lia.
  Qed.

  End Mesh.

  Lemma opt_order_ok : forall o g g1, opt_order o g = (Ok, g1) ->
    g1 = with_order (match o_order o with Some k => clip k 1 4 | None => og_order g end) g /\ (forall k, o_order o = Some k -> 0 <= k).
  Proof.
    intros o g g1 H. unfold opt_order in H. destruct (o_order o) as [k|].
    - unfold set_order in H. destruct (k <? 0) eqn:E; [discriminate|]. apply Z.ltb_ge in E. injection H as <-.
      split; [reflexivity|]. intros k' [= <-]. lia.
    - injection H as <-. split; [destruct g; reflexivity|discriminate].
  Qed.

  Definition bt_F (colloc : bool) (t : basis_type) (own : basis_type) : status * basis_type :=
    if colloc && negb (btype_eqb t BSpline) then (ErrRange, own) else (Ok, t).
  Lemma btype_eqb_eq : forall a b, btype_eqb a b = true -> a = b.
  Proof. intros [] []; cbn; congruence. Qed.
  Lemma bt_cw : forall (t : Z -> basis_type) g l, og_setup g = false ->
    cw (fun be => with_btypes be g) (fun i => set_basis_type i (t i)) (fun i => bt_F (og_colloc g) (t i)) l.
  Proof.
    intros t g l Hs i h _. unfold set_basis_type, bt_F. change (og_colloc (with_btypes h g)) with (og_colloc g).
    destruct (og_colloc g && _); [rewrite upd_id; reflexivity|].
    change (og_btype (with_btypes h g) i) with (h i). destruct (btype_eqb (h i) (t i)) eqn:E.
    - apply btype_eqb_eq in E. rewrite <- E, upd_id. reflexivity.
    - unfold with_btype, with_btypes. cbn. rewrite Hs. reflexivity.
  Qed.

  Lemma opt_basis_types_ok : forall o btype g g1, dim_or_3 g <= 3 -> og_setup g = false -> opt_basis_types o btype g = (Ok, g1) ->
    (forall i, 0 <= i < dim_or_3 g -> btype i = og_btype g i) ->
    exists be, g1 = with_btypes be g /\
      (forall i, 0 <= i < dim_or_3 g -> be i = per_direction (og_btype g i) (o_basis_type o) i /\
                                        (given (o_basis_type o) = true -> og_colloc g = true -> be i = BSpline)) /\
      (forall i, ~ 0 <= i < dim_or_3 g -> be i = og_btype g i).
  Proof.
    intros o btype g g1 H3 Hs H Hb. unfold opt_basis_types, basis_types in H. set (dim := dim_or_3 g) in *.
    destruct (read_array (o_basis_type o) dim btype) as [[bt n] flg] eqn:ER. destruct (read_array_n _ _ _ _ _ _ _ ER) as (Hf & _).
    unfold when in H. destruct flg.
    - rewrite <- (with_btypes_own g) in H at 1.
      destruct (cw_run _ _ _ _ _ _ (bt_cw _ g _ Hs) (NoDup_zseq _ _) H) as (be & E & E1 & E2).
      exists be. split; [exact E|]. split.
      + intros i Hi. specialize (E1 i). rewrite in_zseq in E1. specialize (E1 ltac:(lia)). unfold bt_F in E1.
        rewrite (read_spread _ _ _ _ _ _ _ _ ER Hi H3), Hb in E1 by exact Hi.
        destruct (og_colloc g && _) eqn:EC; [discriminate|]. injection E1 as E1. rewrite <- E1. split; [reflexivity|].
        intros _ Hc. rewrite Hc in EC. cbn [andb] in EC. apply negb_false_iff, btype_eqb_eq in EC. exact EC.
      + intros i Hi. apply E2. rewrite in_zseq. lia.
    - injection H as <-. exists (og_btype g). split; [symmetry; apply with_btypes_own|]. split; [|reflexivity].
      intros i Hi. destruct (o_basis_type o); [discriminate|]. cbn. split; [reflexivity|discriminate].
  Qed.
End Blocks.
