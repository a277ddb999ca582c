From Coq Require Import ZArith List Bool Reals Lia Lra FunctionalExtensionality.
From Verif Require Import Prelude RealOrd AxisModel AxisInitModel AxisInitProofs AxisProofs AxisProofs2 RuleModel OptModel OptSpec OptProofs OptProofs2 OptProofs3 OptProofs4 OptProofs5.
Import ListNotations.
Open Scope Z_scope.

(** The options of the mesh alone are accepted when what they ask for makes sense. *)
Section Accept.
  Variables (size : Z) (lit : Z -> R) (read setup_again : oiga -> status * oiga) (junk : Z -> Z -> R).

  Definition mesh_options bt el de co li : opts := mk_opts None None None None None false bt el de co li None None None None.

  Lemma accepts : forall bt el de co li g, og_stage g = 0 -> og_setup g = false -> og_dim g <= 3 -> og_colloc g = false ->
    (forall l, li = Some l -> length l <> 1%nat) ->
    let o := mesh_options bt el de co li in
    (forall i, 0 <= i < dim_or_3 g -> rebuilt o (og_axis g i) = true ->
       let p := asked_degree o (first_degree g) i (og_axis g i) in
       1 <= p /\ 1 <= asked_elements o (first_elements g) i (og_axis g i) /\
       (fst (asked_limits o (first_limits g) i) < snd (asked_limits o (first_limits g) i))%R /\
       0 <= eff_C (asked_continuity o (per_direction (og_btype g 0) bt 0) i) p < p) ->
    exists g', set_from_options size lit read setup_again junk o g = (Ok, g') /\
      (bt = None -> (forall i, 0 <= i < dim_or_3 g -> rebuilt o (og_axis g i) = false) -> g' = g).
  Proof.
    intros bt el de co li g Hst Hse H3 Hco Hl1 o HA.
    unfold set_from_options. cbv zeta. rewrite Hst, Hse. change (0 =? 0) with true. cbn iota.
    set (dim := dim_or_3 g) in *.
    assert (Hd : 1 <= dim <= 3) by (unfold dim, dim_or_3; destruct (Z.ltb_spec 0 (og_dim g)); lia).
    destruct (axis_defaults g dim) as [[degrs elems] ulims] eqn:ED.
    destruct (axis_defaults_0 g dim degrs elems ulims ltac:(lia) ED) as (D1 & D2 & D3).
    destruct (opt_mesh_form junk o (fun i => if (0 <=? i) && (i <? dim) then og_btype g i else BSpline) degrs elems ulims g
                ltac:(fold dim; lia) Hl1) as (f & Ef & Hcw).
    fold dim in Ef, Hcw. rewrite D1, D2, D3 in Hcw. fold (first_degree g) (first_elements g) (first_limits g) in Hcw.
    rewrite (inside_in basis_type (og_btype g) BSpline dim 0) in Hcw by lia.
    set (F := fun i a => if rebuilt o a then _ else _) in Hcw.
    set (k := fun i => snd (F i (og_axis g i))).
    assert (HF : forall i, 0 <= i < dim -> F i (og_axis g i) = (Ok, k i)).
    { intros i Hi. unfold k. enough (E : fst (F i (og_axis g i)) = Ok) by (destruct (F i (og_axis g i)); cbn in *; subst; reflexivity).
      unfold F. destruct (rebuilt o (og_axis g i)) eqn:Er; [|reflexivity].
      destruct (HA i Hi Er) as (A1 & A2 & A3 & A4). unfold axis_set_periodic. cbn [bind].
      match goal with |- fst (bind ?x _) = _ => assert (Ex : exists c', x = (Ok, c') /\ ax_p c' = asked_degree o (first_degree g) i (og_axis g i)) end.
      { unfold axis_set_degree, axis_reset, axis_create. cbn [ax_m ax_p]. set (p := asked_degree o (first_degree g) i (og_axis g i)) in *.
        rewrite (proj2 (Z.ltb_ge p 1)) by lia. cbn. eexists. split; reflexivity. }
      destruct Ex as (c' & Ex & Ep). rewrite Ex. cbn [bind].
      pose proof (init_uniform_spec (asked_elements o (first_elements g) i (og_axis g i)) (fst (asked_limits o (first_limits g) i))
        (snd (asked_limits o (first_limits g) i)) (asked_continuity o (per_direction (og_btype g 0) bt 0) i) (junk i) c') as K.
      change (o_basis_type o) with bt.
      destruct (axis_init_uniform _ _ _ _ _ c') as [st a']. cbv zeta in K. destruct K as (K & _). rewrite Ep in K. cbn [fst].
      apply K. auto. }
    destruct (cw_total _ _ _ _ (og_axis g) k Hcw (NoDup_zseq _ _)) as (al & EM & M1 & M2).
    { intros i Hi. apply in_zseq in Hi. apply HF. lia. }
    rewrite with_axes_own in EM.
    match goal with |- context [bind ?x _] => assert (EB : x = (Ok, with_axes al g)) end.
    { unfold options_before_setup. cbn [opt_dim o_dim o mesh_options bind].
      change (opt_dof o g) with (Ok, g). cbn [bind]. unfold opt_collocation. cbn [o_collocation o mesh_options bind]. rewrite Hco. cbn [andb reject bind].
      change (opt_processors size o (fun i => if (0 <=? i) && (i <? dim) then og_procs g i else PETSC_DECIDE) g) with (Ok, g). cbn [bind].
      change (opt_periodic o (fun i => if (0 <=? i) && (i <? dim) then ax_periodic (og_axis g i) else false) g) with (Ok, g). cbn [bind o_load].
      rewrite Ef. exact EM. }
    rewrite EB. cbn [bind]. set (h := with_axes al g).
    assert (EA : forall btt rt rs, exists b3, options_any_time lit o btt rt rs h = (Ok, with_btypes b3 h) /\ (bt = None -> b3 = og_btype h)).
    { intros btt rt rs. unfold options_any_time. cbv zeta. change (opt_order o h) with (Ok, h). cbn [bind].
      assert (K2 : exists b3, opt_basis_types o btt h = (Ok, with_btypes b3 h) /\ (bt = None -> b3 = og_btype h)).
      { unfold opt_basis_types, basis_types. change (dim_or_3 h) with dim. change (o_basis_type o) with bt.
        destruct (read_array bt dim btt) as [[bb n] flg] eqn:ER. unfold when.
        destruct (read_array_n _ _ _ _ _ _ _ ER) as (Hf & _). destruct flg.
        - destruct (cw_total _ _ _ _ (og_btype h) (spread (true && (n =? 1)) dim bb) (bt_cw (spread (true && (n =? 1)) dim bb) h (zseq 0 dim) Hse) (NoDup_zseq _ _)) as (b3 & E3 & _).
          { intros i _. unfold bt_F. change (og_colloc h) with (og_colloc g). rewrite Hco. reflexivity. }
          rewrite with_btypes_own in E3. exists b3. split; [exact E3|]. intros E. rewrite E in Hf. discriminate.
        - exists (og_btype h). rewrite with_btypes_own. auto. }
      destruct K2 as (b3 & K2 & K3). rewrite K2. cbn [bind]. exists b3. split; [|exact K3]. reflexivity. }
    match goal with |- context [options_any_time lit o ?x ?y ?z h] => destruct (EA x y z) as (b3 & E3 & N3) end.
    rewrite E3. cbn [bind]. eexists. split; [reflexivity|]. intros Ebt Hno. rewrite (N3 Ebt). rewrite with_btypes_own.
    unfold h. rewrite <- (with_axes_own g) at 2. f_equal. apply functional_extensionality. intros i.
    destruct (in_dec Z.eq_dec i (zseq 0 dim)) as [Hi|Hi]; [|apply M2; exact Hi].
    rewrite M1 by exact Hi. apply in_zseq in Hi. unfold k, F. rewrite Hno by lia. reflexivity.
  Qed.
End Accept.
