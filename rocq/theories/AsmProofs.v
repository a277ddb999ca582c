(** Lemmas about the assembly loops: the distributed sum is the serial sum. *)
From Coq Require Import ZArith List Bool Lia Reals Lra Permutation.
From Coq Require Import ZifyBool ZifyNat.
From Verif Require Import Prelude AxisModel AxisSpec AxisInitModel SetupModel SetupProofs SetupProps
  Box GridModel GridSpec GridProofs GridProofs2 GridSetup GridProps ElemModel ElemSpec ElemProofs.
Import ListNotations.
Open Scope Z_scope.

(** * Sums over tiles *)
Lemma tiles_perm : forall size N st wd, boxes_tile size N st wd ->
  Permutation (flat_map (fun r => box (st r) (wd r)) (zseq 0 size)) (box zero3 N).
Proof.
  intros size N st wd [Hs Hu]. apply NoDup_Permutation; [|apply NoDup_box|].
  - apply NoDup_flat_map; [apply NoDup_zseq|intros; apply NoDup_box|].
    intros a b x Ha Hb Hxa Hxb. apply in_zseq in Ha, Hb. apply In_box in Hxa, Hxb.
    assert (Hin : in_box zero3 N x).
    { pose proof (Hs a ltac:(lia)) as HS. destruct x as [[i j] k]. unfold subbox, in_box in *.
      pose proof (HS 0 ltac:(lia)). pose proof (HS 1 ltac:(lia)). pose proof (HS 2 ltac:(lia)). lia. }
    destruct (Hu x Hin) as (r & _ & Hr). rewrite <- (Hr a), <- (Hr b); auto; split; auto; lia.
  - intros x. rewrite in_flat_map, In_box. split.
    + intros (r & Hr & Hx). apply in_zseq in Hr. apply In_box in Hx. pose proof (Hs r ltac:(lia)) as HS.
      destruct x as [[i j] k]. unfold subbox, in_box in *.
      pose proof (HS 0 ltac:(lia)). pose proof (HS 1 ltac:(lia)). pose proof (HS 2 ltac:(lia)). lia.
    + intros Hx. destruct (Hu x Hx) as (r & [Hr Hb] & _). exists r. split; [apply in_zseq; lia|]. apply In_box; auto.
Qed.

Lemma rsum_tiles : forall size N st wd (f : triple -> R) order, boxes_tile size N st wd -> Permutation order (zseq 0 size) ->
  rsum (fun r => rsum f (box (st r) (wd r))) order = rsum f (box zero3 N).
Proof.
  intros size N st wd f order HT Ho. rewrite (rsum_perm _ _ _ _ Ho). rewrite <- rsum_flat_map. apply rsum_perm, tiles_perm; auto.
Qed.

(** * Entries *)
Lemma add_entries_spec : forall l V t, 0 <= t ->
  add_entries l V t = (V t + rsum (fun p => if (fst p =? t)%Z then snd p else 0%R) l)%R.
Proof.
  induction l as [|p l IH]; intros V t Ht; unfold add_entries in *; cbn [fold_left].
  - unfold rsum; cbn. lra.
  - rewrite IH by auto. rewrite rsum_cons. destruct (fst p <? 0) eqn:E.
    + replace (fst p =? t) with false by lia. lra.
    + unfold upd. destruct (t =? fst p) eqn:E2.
      * assert (t = fst p) by lia. subst t. replace (fst p =? fst p) with true by lia. lra.
      * replace (fst p =? t) with false by lia. lra.
Qed.

Lemma add_entries2_spec : forall l M t u, 0 <= t -> 0 <= u ->
  add_entries2 l M t u = (M t u + rsum (fun p => let '(i, j, x) := p in if (i =? t)%Z && (j =? u)%Z then x else 0%R) l)%R.
Proof.
  induction l as [|[[i j] x] l IH]; intros M t u Ht Hu; unfold add_entries2 in *; cbn [fold_left].
  - unfold rsum; cbn. lra.
  - rewrite IH by auto. rewrite rsum_cons. destruct ((i <? 0) || (j <? 0)) eqn:E.
    + replace ((i =? t) && (j =? u)) with false by lia. lra.
    + unfold upd2. destruct ((t =? i) && (u =? j)) eqn:E2.
      * assert (t = i /\ u = j) as [-> ->] by lia. replace ((i =? i) && (j =? j)) with true by lia. lra.
      * replace ((i =? t) && (j =? u)) with false by lia. lra.
Qed.

Lemma fold_rsum : forall A B (F : (B -> R) -> A -> B -> R) (f : A -> B -> R) (b : B) l V,
  (forall V a, In a l -> F V a b = (V b + f a b)%R) ->
  fold_left F l V b = (V b + rsum (fun a => f a b) l)%R.
Proof.
  intros A B F f b l. induction l as [|a l IH]; intros V H; cbn [fold_left]; [unfold rsum; cbn; lra|].
  rewrite IH by (intros; apply H; right; auto). rewrite H by (left; auto). rewrite rsum_cons. lra.
Qed.

Lemma fold_rsum2 : forall A B C (F : (B -> C -> R) -> A -> B -> C -> R) (f : A -> B -> C -> R) (b : B) (c : C) l V,
  (forall V a, In a l -> F V a b c = (V b c + f a b c)%R) ->
  fold_left F l V b c = (V b c + rsum (fun a => f a b c) l)%R.
Proof.
  intros A B C F f b c l. induction l as [|a l IH]; intros V H; cbn [fold_left]; [unfold rsum; cbn; lra|].
  rewrite IH by (intros; apply H; right; auto). rewrite H by (left; auto). rewrite rsum_cons. lra.
Qed.

Lemma fold_plus : forall A (f : A -> R) l s, fold_left (fun s a => (s + f a)%R) l s = (s + rsum f l)%R.
Proof.
  intros A f l. induction l as [|a l IH]; intros s; cbn [fold_left]; [unfold rsum; cbn; lra|]. rewrite IH, rsum_cons. lra.
Qed.

Lemma combine_box : forall A nen (g : triple -> A), (forall d, 0 <= d < 3 -> 0 <= nen d) ->
  combine (zseq 0 (Z.of_nat (length (map g (box zero3 nen))))) (map g (box zero3 nen)) =
  map (fun a => (lin nen a, g a)) (box zero3 nen).
Proof.
  intros A nen g Hn. rewrite map_length, (len_box3 zero3 nen Hn).
  assert (E : zseq 0 (vol nen) = map (lin nen) (box zero3 nen)).
  { rewrite (box_enum zero3 nen Hn), map_map. rewrite <- (map_id (zseq 0 (vol nen))) at 1. apply map_ext_in.
    intros x Hx. apply in_zseq in Hx. assert (Hv : 0 <= x < vol nen) by lia. clear Hx.
    assert (HP : 0 < nen 0 /\ 0 < nen 1 /\ 0 < nen 2).
    { pose proof (Hn 0 ltac:(lia)). pose proof (Hn 1 ltac:(lia)). pose proof (Hn 2 ltac:(lia)).
      unfold vol in Hv. assert (nen 0 <> 0) by (intros E; rewrite E in Hv; cbn in Hv; lia).
      assert (nen 1 <> 0) by (intros E; rewrite E, Z.mul_0_r in Hv; cbn in Hv; lia).
      assert (nen 2 <> 0) by (intros E; rewrite E, Z.mul_0_r in Hv; lia). lia. }
    destruct HP as (P0 & P1 & P2). destruct (lin_unlin nen x P0 P1 P2 Hv) as [E B].
    destruct (unlin nen x) as [[i j] k]. unfold tadd, zero3. rewrite !Z.add_0_l. symmetry. exact E. }
  rewrite E. clear E. induction (box zero3 nen) as [|a l IH]; cbn [map combine]; [reflexivity|]. f_equal. exact IH.
Qed.

(** * Assembly *)
Section Asm.
  Variables (size dof : Z) (N : Z -> Z) (G : Z -> grid).
  Hypothesis W : grid_world size dof N G.
  Hypothesis Hg : forall r d, 0 <= r < size -> 0 <= d < 3 -> - N d <= gr_gstart (G r) d.
  Variables (nel nen : Z -> Z) (first : triple -> Z -> Z) (est ewd : Z -> Z -> Z).
  Hypothesis Hnen : forall d, 0 <= d < 3 -> 0 <= nen d.
  Hypothesis HT : boxes_tile size nel est ewd.
  Variable elems : Z -> list triple.
  Hypothesis Helems : forall r, 0 <= r < size -> elems r = box (est r) (ewd r).
  (** the functions active on a local element are in the local range *)
  Hypothesis Hcov : forall r e a, 0 <= r < size -> In e (elems r) -> In a (box zero3 nen) ->
    in_box (gr_gstart (G r)) (gr_gwidth (G r)) (tadd (first e) a).
  Let mapping (r : Z) (e : triple) := closure (first e) nen (gr_gstart (G r)) (gr_gwidth (G r)).

  Lemma mapping_form : forall r e, mapping r e =
    map (fun a => lin (gr_gwidth (G r)) (tsub (gr_gstart (G r)) (tadd (first e) a))) (box zero3 nen).
  Proof.
    intros r e. unfold mapping, closure. apply map_ext. intros [[i j] k]. unfold lin, tsub, tadd. lia.
  Qed.

  Lemma mapping_entry : forall r e a, 0 <= r < size -> In e (elems r) -> In a (box zero3 nen) ->
    let m := lin (gr_gwidth (G r)) (tsub (gr_gstart (G r)) (tadd (first e) a)) in
    0 <= m < nghost G r /\ lgmap size G r m = ao size G (lin N (elem_node N first e a)).
  Proof.
    intros r e a Hr He Ha m. pose proof (Hcov r e a Hr He Ha) as HC. unfold m, elem_node.
    destruct (tadd (first e) a) as [[i j] k]. unfold in_box in HC. unfold tsub.
    split.
    - unfold nghost. apply lin_range; lia.
    - rewrite (lgmap_coords _ _ _ _ W) by (auto; lia). do 4 f_equal; [f_equal|]; lia.
  Qed.

  Variable ins : list (Z -> R).
  Variable nat_ins : list nodal.
  (** the global inputs hold the natural-ordered nodal values *)
  Definition holds (V : Z -> R) (X : nodal) : Prop :=
    forall t c, in_box zero3 N t -> 0 <= c < dof -> V (dof * ao size G (lin N t) + c) = X t c.
  Hypothesis Hins : Forall2 holds ins nat_ins.
  Variable L0 : Z -> Z -> R.

  Lemma get_values_copy : forall V X r e, holds V X -> 0 <= r < size -> In e (elems r) ->
    get_values dof (mapping r e) (global_to_local size G V r (L0 r)) = elem_copy N nen first dof e X.
  Proof.
    intros V X r e HV Hr He. unfold get_values, elem_copy. rewrite mapping_form.
    rewrite flat_map_concat_map, map_map, <- flat_map_concat_map.
    assert (K : forall l, (forall a, In a l -> In a (box zero3 nen)) ->
      flat_map (fun a => map (fun i => global_to_local size G V r (L0 r) (lin (gr_gwidth (G r)) (tsub (gr_gstart (G r)) (tadd (first e) a)) * dof + i)) (zseq 0 dof)) l
      = flat_map (fun a => map (X (elem_node N first e a)) (zseq 0 dof)) l).
    { induction l as [|a l IH]; intros Hl; [reflexivity|]. cbn [flat_map]. f_equal; [|apply IH; intros; apply Hl; right; auto].
      apply map_ext_in. intros c Hc. apply in_zseq in Hc.
      destruct (mapping_entry r e a Hr He (Hl a (or_introl eq_refl))) as [M1 M2].
      rewrite (Z.mul_comm _ dof). rewrite (g2l_value _ _ _ _ W) by (auto; lia). rewrite M2. apply HV; [|lia].
      apply (modbox_in _ _ _ _ W). }
    apply K. auto.
  Qed.

  Lemma elem_inputs_copy : forall r e, 0 <= r < size -> In e (elems r) ->
    elem_inputs size G dof mapping ins L0 r e = map (elem_copy N nen first dof e) nat_ins.
  Proof.
    intros r e Hr He. unfold elem_inputs.
    induction Hins as [|V X l l' HV HF IH]; cbn [map]; [reflexivity|]. f_equal; auto. apply get_values_copy; auto.
  Qed.

  Lemma node_entry : forall r e a t, 0 <= r < size -> In e (elems r) -> In a (box zero3 nen) -> in_box zero3 N t ->
    forall c c', 0 <= c < dof -> 0 <= c' < dof ->
    (dof * lgmap size G r (lin (gr_gwidth (G r)) (tsub (gr_gstart (G r)) (tadd (first e) a))) + c' =? dof * ao size G (lin N t) + c)
    = triple_eqb (elem_node N first e a) t && (c' =? c).
  Proof.
    intros r e a t Hr He Ha Ht c c' Hc Hc'. destruct (mapping_entry r e a Hr He Ha) as [_ ->].
    assert (Hm : in_box zero3 N (elem_node N first e a)) by apply (modbox_in _ _ _ _ W).
    destruct (triple_eqb (elem_node N first e a) t) eqn:E.
    - apply triple_eqb_eq in E. rewrite E. cbn [andb]. destruct (c' =? c) eqn:Ec; lia.
    - cbn [andb]. apply Z.eqb_neq. intros K.
      apply block_inj in K; auto; [|apply (w_bs _ _ _ _ W)]. destruct K as [K _].
      apply (ao_inj _ _ _ _ W) in K; [|apply lin_in_range; auto|apply lin_in_range; auto].
      apply lin_inj in K; auto. rewrite K in E. assert (triple_eqb t t = true) by (apply triple_eqb_eq; auto). congruence.
  Qed.

  Lemma ao_entry_nonneg : forall t c, in_box zero3 N t -> 0 <= c -> 0 <= dof * ao size G (lin N t) + c.
  Proof.
    intros t c Ht Hc. pose proof (ao_range _ _ _ _ W _ (lin_in_range N t Ht)) as K. pose proof (w_bs _ _ _ _ W).
    assert (0 <= dof * ao size G (lin N t)) by (apply Z.mul_nonneg_nonneg; lia). lia.
  Qed.

  Variable order : list Z.
  Hypothesis Ho : Permutation order (zseq 0 size).
  Lemma in_order : forall r, In r order -> 0 <= r < size.
  Proof. intros r Hr. assert (In r (zseq 0 size)) by (eapply Permutation_in; eauto). apply in_zseq in H. lia. Qed.

  Lemma vector_serial : forall Fe t c, in_box zero3 N t -> 0 <= c < dof ->
    compute_vector size G dof elems mapping Fe ins L0 order (dof * ao size G (lin N t) + c) =
    serial_vector N nen first dof nel Fe nat_ins t c.
  Proof.
    intros Fe t c Ht Hc. pose proof (ao_entry_nonneg t c Ht ltac:(lia)) as Hnn.
    set (ix := dof * ao size G (lin N t) + c) in *.
    set (contrib := fun e => rsum (fun a => if triple_eqb (elem_node N first e a) t then Fe e (map (elem_copy N nen first dof e) nat_ins) (lin nen a * dof + c) else 0%R) (box zero3 nen)).
    unfold compute_vector.
    rewrite (fold_rsum _ _ _ (fun r _ => rsum contrib (elems r)) ix).
    - rewrite Rplus_0_l. unfold serial_vector. fold contrib.
      transitivity (rsum (fun r => rsum contrib (box (est r) (ewd r))) order).
      + apply rsum_ext. intros r Hr. rewrite Helems by (apply in_order; auto). reflexivity.
      + apply (rsum_tiles size nel est ewd); auto.
    - intros V r Hr. apply in_order in Hr.
      rewrite (fold_rsum _ _ _ (fun e _ => contrib e) ix); [reflexivity|].
      intros V' e He. rewrite add_entries_spec by auto. f_equal.
      unfold vec_entries. rewrite (elem_inputs_copy r e Hr He). rewrite mapping_form, combine_box by auto.
      rewrite rsum_flat_map, rsum_map. unfold contrib. apply rsum_ext. intros a Ha. cbn [fst snd].
      rewrite rsum_map. cbn [fst snd].
      rewrite (rsum_single _ _ _ c); [|apply NoDup_zseq|apply in_zseq; lia|].
      + unfold ix. rewrite node_entry by auto. rewrite Z.eqb_refl, andb_true_r. reflexivity.
      + intros c' Hc' Hne. apply in_zseq in Hc'. unfold ix. rewrite node_entry by (auto; lia).
        replace (c' =? c) with false by lia. rewrite andb_false_r. reflexivity.
  Qed.

  Lemma matrix_serial : forall Ke t c u d, in_box zero3 N t -> 0 <= c < dof -> in_box zero3 N u -> 0 <= d < dof ->
    compute_matrix size G dof elems mapping Ke ins L0 order (dof * ao size G (lin N t) + c) (dof * ao size G (lin N u) + d) =
    serial_matrix N nen first dof nel Ke nat_ins t c u d.
  Proof.
    intros Ke t c u d Ht Hc Hu Hd. pose proof (ao_entry_nonneg t c Ht ltac:(lia)) as Hnn. pose proof (ao_entry_nonneg u d Hu ltac:(lia)) as Hnn'.
    set (ix := dof * ao size G (lin N t) + c) in *. set (iy := dof * ao size G (lin N u) + d) in *.
    set (contrib := fun e => rsum (fun a => rsum (fun b =>
        if triple_eqb (elem_node N first e a) t && triple_eqb (elem_node N first e b) u
        then Ke e (map (elem_copy N nen first dof e) nat_ins) ((lin nen a * dof + c) * (vol nen * dof) + (lin nen b * dof + d)) else 0%R)
        (box zero3 nen)) (box zero3 nen)).
    unfold compute_matrix.
    rewrite (fold_rsum2 _ _ _ _ (fun r _ _ => rsum contrib (elems r)) ix iy).
    - rewrite Rplus_0_l. unfold serial_matrix. fold contrib.
      transitivity (rsum (fun r => rsum contrib (box (est r) (ewd r))) order).
      + apply rsum_ext. intros r Hr. rewrite Helems by (apply in_order; auto). reflexivity.
      + apply (rsum_tiles size nel est ewd); auto.
    - intros V r Hr. apply in_order in Hr.
      rewrite (fold_rsum2 _ _ _ _ (fun e _ _ => contrib e) ix iy); [reflexivity|].
      intros V' e He. rewrite add_entries2_spec by auto. f_equal.
      unfold mat_entries. rewrite (elem_inputs_copy r e Hr He). rewrite mapping_form.
      assert (HL : Z.of_nat (length (map (fun a => lin (gr_gwidth (G r)) (tsub (gr_gstart (G r)) (tadd (first e) a))) (box zero3 nen))) = vol nen)
        by (rewrite map_length; apply len_box3; auto).
      rewrite combine_box by auto. rewrite HL.
      rewrite rsum_flat_map, rsum_map. unfold contrib. apply rsum_ext. intros a Ha. cbn [fst snd].
      rewrite rsum_flat_map. rewrite (rsum_single _ _ _ c); [|apply NoDup_zseq|apply in_zseq; lia|].
      + rewrite rsum_flat_map, rsum_map. apply rsum_ext. intros b Hb. cbn [fst snd].
        rewrite rsum_map. rewrite (rsum_single _ _ _ d); [|apply NoDup_zseq|apply in_zseq; lia|].
        * unfold ix, iy. rewrite !node_entry by auto. rewrite !Z.eqb_refl, !andb_true_r. reflexivity.
        * intros d' Hd' Hne. apply in_zseq in Hd'. unfold ix, iy. rewrite !node_entry by (auto; lia).
          replace (d' =? d) with false by lia. rewrite !andb_false_r. reflexivity.
      + intros c' Hc' Hne. apply in_zseq in Hc'. rewrite rsum_flat_map, rsum_map. apply rsum_zero. intros b Hb. cbn [fst snd].
        rewrite rsum_map. apply rsum_zero. intros d' Hd'. apply in_zseq in Hd'. unfold ix, iy. rewrite !node_entry by (auto; lia).
        replace (c' =? c) with false by lia. rewrite !andb_false_r. reflexivity.
  Qed.

  Lemma scalar_serial : forall npts JW Sc i,
    compute_scalar size G dof elems mapping ins L0 npts JW Sc order i =
    serial_scalar N nen first dof nel npts JW Sc nat_ins i.
  Proof.
    intros npts JW Sc i. unfold compute_scalar. rewrite fold_plus, Rplus_0_l.
    set (contrib := fun e => rsum (fun q => Sc e q (map (elem_copy N nen first dof e) nat_ins) i * JW e q)%R (zseq 0 (npts e))).
    unfold serial_scalar. fold contrib.
    transitivity (rsum (fun r => rsum contrib (box (est r) (ewd r))) order); [|apply (rsum_tiles size nel est ewd); auto].
    apply rsum_ext. intros r Hr. apply in_order in Hr. rewrite <- (Helems r Hr). unfold local_scalar.
    assert (K : forall l s, (forall e, In e l -> In e (elems r)) ->
      fold_left (fun s e => fold_left (fun s q => (s + Sc e q (elem_inputs size G dof mapping ins L0 r e) i * JW e q)%R) (zseq 0 (npts e)) s) l s
      = (s + rsum contrib l)%R).
    { induction l as [|e l IH]; intros s Hl; cbn [fold_left]; [unfold rsum; cbn; lra|].
      rewrite fold_plus, IH by (intros; apply Hl; right; auto). rewrite rsum_cons. unfold contrib at 2.
      rewrite (elem_inputs_copy r e Hr (Hl e (or_introl eq_refl))). lra. }
    rewrite K by auto. lra.
  Qed.
End Asm.
