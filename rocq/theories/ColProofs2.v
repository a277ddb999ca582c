(** Collocation: the form loop, the element's arrays and the assembly of rows. *)
From Coq Require Import ZArith List Bool Lia Reals Lra Permutation.
From Coq Require Import ZifyBool ZifyNat.
From Verif Require Import Prelude RealOrd AxisModel AxisSpec AxisInitModel PartModel PartSpec PartProofs SetupModel SetupProofs SetupProps CollocProofs
  Box GridModel GridSpec GridProofs GridProofs2 GridSetup GridProps ElemModel ElemSpec ElemProofs ElemProps AsmProofs
  BCModel BCSpec DrvModel DrvSpec DrvProofs RuleModel MapModel TabModel ColModel ColSpec ColProofs.
Import ListNotations.
Open Scope Z_scope.

(** * One form per point *)
Lemma col_form_loop_rest visit e fuel : 0 <= el_dim e <= 3 -> el_bid e = -1 -> el_atb e = false ->
  col_form_loop (S (S fuel)) visit e = Some ([point_form (el_dim e) (el_sizes e) visit (el_triple e)], e).
Proof.
  intros Hd Hb Ha.
  pose proof (form_loop_rest visit e Hd Hb Ha) as K.
  assert (Ee : el_set_b e (-1) (el_atb e) = e) by (destruct e; cbn in *; unfold el_set_b; cbn; rewrite Hb; reflexivity).
  assert (Ee' : el_set_b e (-1) false = e) by (rewrite <- Ha; exact Ee).
  cbn [col_form_loop].
  assert (E1 : next_form visit e = match faces_after visit e (-1) with
    | b' :: _ => (true, el_set_b e b' true) | [] => (true, el_set_b e (2 * el_dim e + 1) false) end).
  { rewrite <- Ee at 1. apply next_form_set; lia. }
  assert (KF : pieces (el_dim e) (el_sizes e) visit (el_triple e) = map visit_of (faces_after visit e (-1)) ++ [Interior]).
  { pose proof (form_loop_from visit e (Z.to_nat (2 * el_dim e + 1)) (-1) (el_atb e) ltac:(lia) ltac:(lia) ltac:(lia)) as F.
    rewrite Ee in F. replace (S (S (Z.to_nat (2 * el_dim e + 1)))) with (Z.to_nat (2 * el_dim e + 3)) in F by lia.
    rewrite K in F. congruence. }
  rewrite E1. unfold point_form. rewrite KF.
  destruct (faces_after visit e (-1)) as [|b' l] eqn:EF.
  - cbn [end_point el_set_b el_atb form_of map app hd]. unfold end_point. cbn [el_set_b el_atb].
    rewrite next_form_end. unfold form_of. cbn [el_set_b el_atb]. rewrite Ee'. reflexivity.
  - replace (end_point (el_set_b e b' true)) with (el_set_b e (2 * el_dim e) false) by reflexivity.
    assert (E2 : next_form visit (el_set_b e (2 * el_dim e) false) = (false, el_set_b e (-1) false)).
    { unfold next_form. cbn [form_scan el_set_b el_dim el_bid].
      replace (2 * el_dim e + 1 <? 2 * el_dim e) with false by lia. cbn [el_set_b el_dim el_bid].
      replace (2 * el_dim e + 1 =? 2 * el_dim e) with false by lia. reflexivity. }
    rewrite E2. unfold form_of. cbn [el_set_b el_atb el_bid map app hd]. rewrite Ee'. reflexivity.
Qed.

Lemma col_forms_one dim nnp visit e : 0 <= dim <= 3 -> col_forms dim nnp visit e = [point_form dim nnp visit e].
Proof.
  intros Hd. unfold col_forms.
  replace (Z.to_nat (2 * dim + 3)) with (S (S (Z.to_nat (2 * dim + 1)))) by lia.
  rewrite col_form_loop_rest by (cbn [el_dim el_bid el_atb]; auto).
  cbn [el_dim el_sizes]. do 2 f_equal. unfold el_triple. cbn [el_ID]. destruct e as [[i j] k]. reflexivity.
Qed.

Lemma col_accumulate_spec dim nnp visit npts JW m e cb i : 0 <= dim <= 3 -> npts e (point_form dim nnp visit e) = 1 -> JW e (point_form dim nnp visit e) 0 = 1%R ->
  0 <= i < m -> col_accumulate dim nnp visit npts JW m e cb i = cb (point_form dim nnp visit e) 0 work i.
Proof.
  intros Hd Hn HJ Hi. unfold col_accumulate. rewrite col_forms_one by auto. cbn [fold_left].
  unfold visit_points. rewrite Hn. rewrite (C51_point_loop 1 0 ltac:(lia)).
  change (zseq 0 1) with [0]. cbn [fold_left]. rewrite loop_add, HJ. replace ((0 <=? i) && (i <? m)) with true by lia.
  unfold work at 1. lra.
Qed.

(** * Tables *)
Section Tables.
  Variable CB : Z -> R -> Z -> Z -> (Z -> R) -> Z -> Z -> R.
  Variables (dim : Z) (axes : Z -> axis Rord) (BT : Z -> btable).
  Hypothesis HB : col_tables CB dim axes BT.

  Lemma col_q i : 0 <= i < 3 -> exists off,
    bq_nqp (bt_q (BT i)) = 1 /\ (forall e, bq_weight (bt_q (BT i)) e = [1%R]) /\ (forall e, bq_detJac (bt_q (BT i)) e = 1%R) /\
    bq_offset (bt_q (BT i)) = off /\
    bq_nen (bt_q (BT i)) = (if i <? dim then ax_p (axes i) + 1 else 1).
  Proof.
    intros Hi. specialize (HB i Hi). unfold setup_colloc, init_collocation in HB. cbn [negb] in HB.
    destruct (i <? dim); injection HB as <-; cbn; eexists; repeat split.
  Qed.
  Lemma col_JW_one e f q : (forall axis side, f = Face axis side -> 0 <= axis < 3) -> point_index dim BT e f q 0 = 0 -> point_index dim BT e f q 1 = 0 -> point_index dim BT e f q 2 = 0 ->
    col_JW dim BT e f q = 1%R.
  Proof.
    intros Hf P0 P1 P2. unfold col_JW.
    assert (D : forall i, 0 <= i < 3 -> d_J (dir_of BT e f i) = 1%R /\ d_w (dir_of BT e f i) 0 = 1%R).
    { intros i Hi. destruct (col_q i Hi) as (off & Q1 & Q2 & Q3 & _).
      assert (A : d_J (dir_args (BT i) (coord e i)) = 1%R /\ d_w (dir_args (BT i) (coord e i)) 0 = 1%R).
      { cbn [dir_args d_J d_w]. unfold weights_at. rewrite Q2, Q3. cbn. auto. }
      destruct f as [axis side|]; cbn [dir_of]; [|exact A]. destruct (i =? axis); [cbn; auto|exact A]. }
    destruct (D 0 ltac:(lia)) as [J0 W0]. destruct (D 1 ltac:(lia)) as [J1 W1]. destruct (D 2 ltac:(lia)) as [J2 W2].
    unfold tab_detJ, tab_weight. rewrite P0, P1, P2, J0, J1, J2, W0, W1, W2.
    destruct (dim =? 1); [ring|]. destruct (dim =? 2); ring.
  Qed.
  Lemma col_quad_size e i : 0 <= i < 3 -> quad_size (BT i) e = 1.
  Proof.
    intros Hi. destruct (col_q i Hi) as (off & Q1 & Q2 & _). unfold quad_size. rewrite Q1. change (Z.to_nat 1) with 1%nat. cbn [quad_trim].
    unfold weights_at. rewrite Q2. change (nth (Z.to_nat (Z.of_nat 0)) [1%R] 0%R) with 1%R. destruct (Rle_dec 1 0); [lra|]. reflexivity.
  Qed.
  Lemma col_npts e f : (forall axis side, f = Face axis side -> 0 <= axis < 3) -> tab_npts BT e f = 1.
  Proof.
    intros Hf. unfold tab_npts, tab_count. rewrite !col_quad_size by lia. destruct f as [axis side|]; [|reflexivity].
    rewrite col_quad_size by (eapply Hf; reflexivity). reflexivity.
  Qed.
  Lemma col_nq e f i : (forall axis side, f = Face axis side -> 0 <= axis < 3) -> 0 <= i < 3 -> d_nq (dir_of BT e f i) = 1.
  Proof.
    intros Hf Hi. destruct f as [axis side|]; cbn [dir_of]; [destruct (i =? axis); [reflexivity|]|]; cbn [dir_args d_nq]; apply col_quad_size; auto.
  Qed.
  Lemma col_point_index e f i : (forall axis side, f = Face axis side -> 0 <= axis < 3) -> point_index dim BT e f 0 i = 0.
  Proof.
    intros Hf. unfold point_index. rewrite !col_nq by (auto; lia).
    destruct (i =? 0); [destruct (dim =? 1); reflexivity|]. destruct (i =? 1); [destruct (dim =? 2); reflexivity|]. reflexivity.
  Qed.
End Tables.

(** * Assembly of rows *)
Section Asm.
  Variables (size dof : Z) (N : Z -> Z) (G : Z -> grid).
  Hypothesis W : grid_world size dof N G.
  Hypothesis Hg : forall r d, 0 <= r < size -> 0 <= d < 3 -> - N d <= gr_gstart (G r) d.
  Variables (nen : Z -> Z) (first : triple -> Z -> Z).
  Hypothesis Hnen : forall d, 0 <= d < 3 -> 0 <= nen d.
  Variable elems : Z -> list triple.
  Hypothesis Helems : forall r, 0 <= r < size -> elems r = box (gr_lstart (G r)) (gr_lwidth (G r)).
  Hypothesis Hcov : forall r e a, 0 <= r < size -> In e (elems r) -> In a (box zero3 nen) ->
    in_box (gr_gstart (G r)) (gr_gwidth (G r)) (tadd (first e) a).
  Hypothesis Hown : forall r, 0 <= r < size -> subbox (gr_lstart (G r)) (gr_lwidth (G r)) (gr_gstart (G r)) (gr_gwidth (G r)).
  Let mapping (r : Z) (e : triple) := closure (first e) nen (gr_gstart (G r)) (gr_gwidth (G r)).
  Let rowmap (r : Z) (e : triple) := row_map (gr_gstart (G r)) (gr_gwidth (G r)) e.

  Lemma in_order' : forall order, Permutation order (zseq 0 size) -> forall r, In r order -> 0 <= r < size.
  Proof. intros order Ho r Hr. assert (K : In r (zseq 0 size)) by (eapply Permutation_in; eauto). apply in_zseq in K. lia. Qed.
  Lemma map_form : forall r e, mapping r e =
    map (fun a => lin (gr_gwidth (G r)) (tsub (gr_gstart (G r)) (tadd (first e) a))) (box zero3 nen).
  Proof. intros r e. unfold mapping, closure. apply map_ext. intros [[i j] k]. unfold lin, tsub, tadd. lia. Qed.
  Lemma entry_nonneg : forall t c, in_box zero3 N t -> 0 <= c -> 0 <= dof * ao size G (lin N t) + c.
  Proof.
    intros t c Ht Hc. pose proof (ao_range _ _ _ _ W _ (lin_in_range N t Ht)) as K. pose proof (w_bs _ _ _ _ W).
    assert (0 <= dof * ao size G (lin N t)) by (apply Z.mul_nonneg_nonneg; lia). lia.
  Qed.
  Lemma node_index : forall r e a t, 0 <= r < size -> In e (elems r) -> In a (box zero3 nen) -> in_box zero3 N t ->
    forall c c', 0 <= c < dof -> 0 <= c' < dof ->
    (dof * lgmap size G r (lin (gr_gwidth (G r)) (tsub (gr_gstart (G r)) (tadd (first e) a))) + c' =? dof * ao size G (lin N t) + c)
    = triple_eqb (elem_node N first e a) t && (c' =? c).
  Proof. exact (node_entry size dof N G W Hg nen first _ _ Hnen elems Helems Hcov (fun _ _ => 0%R)). Qed.

  Lemma own_in_N : forall r e, 0 <= r < size -> In e (elems r) -> in_box zero3 N e.
  Proof.
    intros r e Hr He. rewrite Helems in He by auto. apply In_box in He.
    destruct W as (_ & _ & _ & HL & _). destruct (HL r Hr) as [_ HLd]. destruct e as [[i j] k]. unfold in_box, zero3 in *.
    pose proof (HLd 0 ltac:(lia)). pose proof (HLd 1 ltac:(lia)). pose proof (HLd 2 ltac:(lia)). lia.
  Qed.
  Lemma row_entry : forall r e, 0 <= r < size -> In e (elems r) ->
    lgmap size G r (rowmap r e) = ao size G (lin N e).
  Proof.
    intros r e Hr He. pose proof (own_in_N r e Hr He) as HN. rewrite Helems in He by auto. apply In_box in He.
    assert (HG : in_box (gr_gstart (G r)) (gr_gwidth (G r)) e).
    { pose proof (Hown r Hr) as HS. destruct e as [[i j] k]. unfold in_box, subbox in *.
      pose proof (HS 0 ltac:(lia)). pose proof (HS 1 ltac:(lia)). pose proof (HS 2 ltac:(lia)). lia. }
    destruct e as [[i j] k]. unfold in_box, zero3 in *. unfold rowmap, row_map.
    replace ((i - gr_gstart (G r) 0) + (j - gr_gstart (G r) 1) * gr_gwidth (G r) 0 + (k - gr_gstart (G r) 2) * (gr_gwidth (G r) 0 * gr_gwidth (G r) 1))
      with (lin (gr_gwidth (G r)) (i - gr_gstart (G r) 0, j - gr_gstart (G r) 1, k - gr_gstart (G r) 2)) by (unfold lin; ring).
    rewrite (lgmap_coords _ _ _ _ W) by (auto; lia). do 2 f_equal. unfold modbox, tadd.
    rewrite !Z.mod_small by lia. do 2 f_equal; lia.
  Qed.

  Variable ins : list (Z -> R).
  Variable nat_ins : list nodal.
  Hypothesis Hins : Forall2 (holds size dof N G) ins nat_ins.
  Variable L0 : Z -> Z -> R.
  Variable order : list Z.
  Hypothesis Ho : Permutation order (zseq 0 size).

  Lemma inputs_copy : forall r e, 0 <= r < size -> In e (elems r) ->
    elem_inputs size G dof mapping ins L0 r e = map (elem_copy N nen first dof e) nat_ins.
  Proof. exact (elem_inputs_copy size dof N G W Hg nen first _ _ Hnen elems Helems Hcov ins nat_ins Hins L0). Qed.

  (** the process owning node t *)
  Lemma owner_unique : forall r r' t, 0 <= r < size -> 0 <= r' < size -> In t (elems r) -> In t (elems r') -> r = r'.
  Proof.
    intros r r' t Hr Hr' H H'. pose proof (own_in_N r t Hr H) as HN. rewrite Helems in H, H' by auto. apply In_box in H, H'.
    destruct W as (_ & _ & _ & _ & HU). destruct (HU t HN) as (s & _ & Hs). rewrite <- (Hs r), <- (Hs r'); auto.
  Qed.
  Lemma elems_NoDup : forall r, 0 <= r < size -> NoDup (elems r).
  Proof. intros r Hr. rewrite Helems by auto. apply NoDup_box. Qed.

  Lemma single_row : forall (g : Z -> triple -> R) r0 t, 0 <= r0 < size -> In t (elems r0) ->
    (forall r e, 0 <= r < size -> In e (elems r) -> e <> t -> g r e = 0%R) ->
    rsum (fun r => rsum (g r) (elems r)) order = g r0 t.
  Proof.
    intros g r0 t Hr0 Ht H.
    assert (HND : NoDup order) by (apply (Permutation_NoDup (Permutation_sym Ho)), NoDup_zseq).
    assert (Hin : forall r, In r order <-> 0 <= r < size).
    { intros r. split; intros K.
      - assert (K' : In r (zseq 0 size)) by (eapply Permutation_in; eauto). apply in_zseq in K'. lia.
      - apply (Permutation_in r (Permutation_sym Ho)). apply in_zseq. lia. }
    rewrite (rsum_single _ _ _ r0 HND (proj2 (Hin r0) Hr0)).
    - rewrite (rsum_single _ _ _ t (elems_NoDup r0 Hr0) Ht); [reflexivity|]. intros e He Hne. apply H; auto.
    - intros r Hr Hne. apply Hin in Hr. apply rsum_zero. intros e He. apply H; auto. intros ->.
      apply Hne. apply (owner_unique r r0 t); auto.
  Qed.

  Lemma row_index : forall r e t c c', 0 <= r < size -> In e (elems r) -> in_box zero3 N t -> 0 <= c < dof -> 0 <= c' < dof ->
    (dof * lgmap size G r (rowmap r e) + c' =? dof * ao size G (lin N t) + c) = triple_eqb e t && (c' =? c).
  Proof.
    intros r e t c c' Hr He Ht Hc Hc'. rewrite row_entry by auto.
    pose proof (own_in_N r e Hr He) as Hm.
    destruct (triple_eqb e t) eqn:E.
    - apply triple_eqb_eq in E. rewrite E. cbn [andb]. destruct (c' =? c) eqn:Ec; lia.
    - cbn [andb]. apply Z.eqb_neq. intros K.
      apply block_inj in K; auto; [|apply (w_bs _ _ _ _ W)]. destruct K as [K _].
      apply (ao_inj _ _ _ _ W) in K; [|apply lin_in_range; auto|apply lin_in_range; auto].
      apply lin_inj in K; auto. rewrite K in E. assert (triple_eqb t t = true) by (apply triple_eqb_eq; auto). congruence.
  Qed.

  Lemma col_vector_row : forall Fe r0 t c, 0 <= r0 < size -> In t (elems r0) -> 0 <= c < dof ->
    col_compute_vector size G dof elems mapping rowmap Fe ins L0 order (dof * ao size G (lin N t) + c) =
    Fe r0 t (map (elem_copy N nen first dof t) nat_ins) c.
  Proof.
    intros Fe r0 t c Hr0 Ht0 Hc. pose proof (own_in_N r0 t Hr0 Ht0) as Ht.
    pose proof (entry_nonneg t c Ht ltac:(lia)) as Hnn.
    set (ix := dof * ao size G (lin N t) + c) in *.
    set (contrib := fun r e => if triple_eqb e t then Fe r e (map (elem_copy N nen first dof e) nat_ins) c else 0%R).
    unfold col_compute_vector.
    rewrite (fold_rsum _ _ _ (fun r _ => rsum (contrib r) (elems r)) ix).
    - rewrite Rplus_0_l. rewrite (single_row contrib r0 t Hr0 Ht0).
      + unfold contrib. replace (triple_eqb t t) with true by (symmetry; apply triple_eqb_eq; auto). reflexivity.
      + intros r e Hr He Hne. unfold contrib. destruct (triple_eqb e t) eqn:E; auto. apply triple_eqb_eq in E. contradiction.
    - intros V r Hr. apply (in_order' order Ho) in Hr.
      rewrite (fold_rsum _ _ _ (fun e _ => contrib r e) ix); [reflexivity|].
      intros V' e He. rewrite add_entries_spec by auto. f_equal. unfold col_vec_entries.
      rewrite (inputs_copy r e Hr He).
      rewrite rsum_map. cbn [fst snd]. unfold contrib.
      rewrite (rsum_single _ _ _ c); [|apply NoDup_zseq|apply in_zseq; lia|].
      + unfold ix. rewrite row_index by auto. rewrite Z.eqb_refl, andb_true_r. reflexivity.
      + intros c' Hc' Hne. apply in_zseq in Hc'. unfold ix. rewrite row_index by (auto; lia).
        replace (c' =? c) with false by lia. rewrite andb_false_r. reflexivity.
  Qed.

  Lemma col_matrix_row : forall Ke r0 t c u d, 0 <= r0 < size -> In t (elems r0) -> 0 <= c < dof -> in_box zero3 N u -> 0 <= d < dof ->
    col_compute_matrix size G dof elems mapping rowmap Ke ins L0 order (dof * ao size G (lin N t) + c) (dof * ao size G (lin N u) + d) =
    colloc_matrix N nen first dof (Ke r0) nat_ins t c u d.
  Proof.
    intros Ke r0 t c u d Hr0 Ht0 Hc Hu Hd. pose proof (own_in_N r0 t Hr0 Ht0) as Ht.
    pose proof (entry_nonneg t c Ht ltac:(lia)) as Hnn.
    pose proof (entry_nonneg u d Hu ltac:(lia)) as Hnn'.
    set (ix := dof * ao size G (lin N t) + c) in *. set (iy := dof * ao size G (lin N u) + d) in *.
    set (contrib := fun r e => if triple_eqb e t then colloc_matrix N nen first dof (Ke r) nat_ins e c u d else 0%R).
    unfold col_compute_matrix.
    rewrite (fold_rsum2 _ _ _ _ (fun r _ _ => rsum (contrib r) (elems r)) ix iy).
    - rewrite Rplus_0_l. rewrite (single_row contrib r0 t Hr0 Ht0).
      + unfold contrib. replace (triple_eqb t t) with true by (symmetry; apply triple_eqb_eq; auto). reflexivity.
      + intros r e Hr He Hne. unfold contrib. destruct (triple_eqb e t) eqn:E; auto. apply triple_eqb_eq in E. contradiction.
    - intros V r Hr. apply (in_order' order Ho) in Hr.
      rewrite (fold_rsum2 _ _ _ _ (fun e _ _ => contrib r e) ix iy); [reflexivity|].
      intros V' e He. rewrite add_entries2_spec by auto. f_equal. unfold col_mat_entries.
      rewrite (inputs_copy r e Hr He).
      rewrite map_form.
      assert (HL : Z.of_nat (length (map (fun a => lin (gr_gwidth (G r)) (tsub (gr_gstart (G r)) (tadd (first e) a))) (box zero3 nen))) = vol nen)
        by (rewrite map_length; apply len_box3; auto).
      rewrite combine_box by auto. rewrite HL. unfold contrib.
      rewrite rsum_flat_map. rewrite (rsum_single _ _ _ c); [|apply NoDup_zseq|apply in_zseq; lia|].
      + rewrite rsum_flat_map, rsum_map. unfold colloc_matrix.
        destruct (triple_eqb e t) eqn:Eet.
        * apply rsum_ext. intros b Hb. cbn [fst snd].
          rewrite rsum_map. rewrite (rsum_single _ _ _ d); [|apply NoDup_zseq|apply in_zseq; lia|].
          -- unfold ix, iy. rewrite row_index by auto.
             rewrite node_index by auto. rewrite Eet, !Z.eqb_refl, !andb_true_r. reflexivity.
          -- intros d' Hd' Hne. apply in_zseq in Hd'. unfold ix, iy. rewrite row_index by auto.
             rewrite node_index by (auto; lia).
             replace (d' =? d) with false by lia. rewrite !andb_false_r. reflexivity.
        * apply rsum_zero. intros b Hb. cbn [fst snd]. rewrite rsum_map. apply rsum_zero. intros d' Hd'. unfold ix. rewrite row_index by auto. rewrite Eet. reflexivity.
      + intros c' Hc' Hne. apply in_zseq in Hc'. rewrite rsum_flat_map, rsum_map. apply rsum_zero. intros b Hb. cbn [fst snd].
        rewrite rsum_map. apply rsum_zero. intros d' Hd'. apply in_zseq in Hd'. unfold ix. rewrite row_index by (auto; lia).
        replace (c' =? c) with false by lia. rewrite !andb_false_r. reflexivity.
  Qed.
End Asm.
