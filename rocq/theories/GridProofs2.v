(** Vector transfers. *)
From Coq Require Import ZArith List Bool Lia Reals Lra Permutation.
From Coq Require Import ZifyBool ZifyNat.
From Verif Require Import Prelude Box AxisInitModel SetupModel GridModel GridSpec GridProofs.
Import ListNotations.
Open Scope Z_scope.

(** Enumerated filter of a box by a contained box. *)
Lemma enum_filter : forall s w S W, subbox s w S W ->
  let b := box S W in
  let l := filter (fun p => in_boxb s w (fst p)) (combine b (zseq 0 (Z.of_nat (length b)))) in
  map fst l = box s w /\
  forall t i, In (t, i) l -> in_box s w t /\ 0 <= i < Z.of_nat (length b) /\ nth_error b (Z.to_nat i) = Some t.
Proof.
  intros s w S W H b l. split.
  - unfold l. rewrite filter_combine_fst; [|rewrite length_zseq; lia]. apply filter_box; auto.
  - intros t i Hin. unfold l in Hin. apply filter_In in Hin. destruct Hin as [Hin Hb]. cbn [fst] in Hb.
    apply in_combine_zseq in Hin. rewrite Z.sub_0_r in Hin. split; [apply in_boxb_spec; auto|]. destruct Hin; split; auto; lia.
Qed.

Section World.
  Variables (size bs : Z) (N : Z -> Z) (G : Z -> grid).
  Hypothesis W : grid_world size bs N G.

  Let owned (r : Z) := in_box (gr_lstart (G r)) (gr_lwidth (G r)).

  Lemma nghost_len : forall r, 0 <= r < size -> nghost G r = Z.of_nat (length (box (gr_gstart (G r)) (gr_gwidth (G r)))).
  Proof. intros r Hr. symmetry. unfold nghost. apply len_box3. intros d Hd. apply (w_dir _ _ _ _ W r d Hr Hd). Qed.

  Lemma lgmap_nth : forall r ix t, 0 <= r < size -> 0 <= ix ->
    nth_error (box (gr_gstart (G r)) (gr_gwidth (G r))) (Z.to_nat ix) = Some t ->
    lgmap size G r ix = ao size G (lin N (wrap N t)).
  Proof.
    intros r ix t Hr Hix H. unfold lgmap, ghost_indices.
    erewrite nth_error_nth; [reflexivity|].
    rewrite nth_error_map, H. cbn [option_map].
    rewrite (w_lin _ _ _ _ W), (w_wrap _ _ _ _ W) by auto. reflexivity.
  Qed.

  Lemma wrap_id : forall t, in_box zero3 N t -> wrap N t = t.
  Proof.
    intros [[i j] k] H. unfold in_box, zero3 in H. unfold wrap, wrap1.
    replace (i <? 0) with false by lia. replace (N 0 <=? i) with false by lia.
    replace (j <? 0) with false by lia. replace (N 1 <=? j) with false by lia.
    replace (k <? 0) with false by lia. replace (N 2 <=? k) with false by lia. reflexivity.
  Qed.

  Lemma wrap_mod : forall t, (let '(i,j,k) := t in - N 0 <= i /\ - N 1 <= j /\ - N 2 <= k) -> wrap N t = modbox N t.
  Proof.
    intros [[i j] k] H. unfold wrap, modbox.
    pose proof (w_N _ _ _ _ W 0 ltac:(lia)). pose proof (w_N _ _ _ _ W 1 ltac:(lia)). pose proof (w_N _ _ _ _ W 2 ltac:(lia)).
    rewrite !wrap1_mod by lia. reflexivity.
  Qed.

  Lemma ghost_low : forall r t, (forall d, 0 <= d < 3 -> - N d <= gr_gstart (G r) d) ->
    In t (box (gr_gstart (G r)) (gr_gwidth (G r))) -> let '(i,j,k) := t in - N 0 <= i /\ - N 1 <= j /\ - N 2 <= k.
  Proof.
    intros r [[i j] k] Hg H. apply In_box in H. unfold in_box in H.
    pose proof (Hg 0 ltac:(lia)). pose proof (Hg 1 ltac:(lia)). pose proof (Hg 2 ltac:(lia)). lia.
  Qed.

  Lemma lgmap_range : forall r k, 0 <= r < size -> (forall d, 0 <= d < 3 -> - N d <= gr_gstart (G r) d) ->
    0 <= k < nghost G r -> 0 <= lgmap size G r k < vol N.
  Proof.
    intros r k Hr Hg Hk. rewrite nghost_len in Hk by auto.
    destruct (nth_error (box (gr_gstart (G r)) (gr_gwidth (G r))) (Z.to_nat k)) as [t|] eqn:E.
    2:{ apply nth_error_None in E. lia. }
    rewrite (lgmap_nth r k t Hr ltac:(lia) E). rewrite wrap_mod by (apply (ghost_low r); auto; eapply nth_error_In; eauto).
    apply (ao_range _ _ _ _ W). apply (lin_in_range N). apply (modbox_in _ _ _ _ W).
  Qed.

  (** ** IGAGlobalToLocal *)
  Lemma g2l_value : forall A (V L : Z -> A) r k c, 0 <= r < size ->
    (forall d, 0 <= d < 3 -> - N d <= gr_gstart (G r) d) ->
    0 <= k < nghost G r -> 0 <= c < bs ->
    global_to_local size G V r L (bs * k + c) = V (bs * lgmap size G r k + c).
  Proof.
    intros A V L r k c Hr Hg Hk Hc. unfold global_to_local. rewrite insert_pairs_writes.
    pose proof (w_bs _ _ _ _ W) as Hbs. rewrite (w_dof _ _ _ _ W r Hr).
    assert (Key : forall a b, In (a, b) (vpairs (blocks bs (g2l_pairs size G r))) ->
       exists k' c', 0 <= k' < nghost G r /\ 0 <= c' < bs /\ a = bs * lgmap size G r k' + c' /\ b = bs * k' + c').
    { intros a b H. apply filter_In in H. destruct H as [H _]. apply in_blocks in H; auto.
      destruct H as (p & c' & Hp & Hc' & -> & ->). unfold g2l_pairs in Hp. apply in_map_iff in Hp.
      destruct Hp as (k' & <- & Hk'). apply in_zseq in Hk'. cbn [fst snd]. exists k', c'. repeat split; auto; lia. }
    apply writes_spec.
    - intros v' H. apply in_map_iff in H. destruct H as ([a b] & E & H). cbn [fst snd] in E. inversion E; subst.
      destruct (Key _ _ H) as (k' & c' & Hk' & Hc' & -> & Eb).
      destruct (block_inj bs k' k c' c Hbs Hc' Hc ltac:(lia)) as [-> ->]. reflexivity.
    - apply in_map_iff. exists (bs * lgmap size G r k + c, bs * k + c). split; auto.
      pose proof (lgmap_range r k Hr Hg Hk) as HR.
      assert (0 <= bs * lgmap size G r k) by (apply Z.mul_nonneg_nonneg; lia).
      assert (0 <= bs * k) by (apply Z.mul_nonneg_nonneg; lia).
      apply filter_In. split; [|cbn [fst snd]; lia].
      apply in_blocks; auto. exists (lgmap size G r k, k), c. split; [|cbn [fst snd]; auto].
      unfold g2l_pairs. apply in_map_iff. exists k. split; auto. apply in_zseq. lia.
  Qed.

  (** ** IGALocalToGlobal INSERT *)
  Lemma ilocal_spec : forall junk r pos, 0 <= r < size ->
    subbox (gr_lstart (G r)) (gr_lwidth (G r)) (gr_gstart (G r)) (gr_gwidth (G r)) ->
    0 <= pos < nlocal (G r) ->
    0 <= ilocal G junk r pos < nghost G r /\ lgmap size G r (ilocal G junk r pos) = off G r + pos.
  Proof.
    intros junk r pos Hr Hs Hp. pose proof (enum_filter _ _ _ _ Hs) as HE. cbv zeta in HE.
    unfold ilocal, ilocal_written.
    set (b := box (gr_gstart (G r)) (gr_gwidth (G r))) in *.
    set (l := filter _ _) in *. destruct HE as [H1 H2].
    assert (HL : Z.of_nat (length l) = nlocal (G r)).
    { rewrite <- (map_length fst). rewrite H1. unfold nlocal. apply len_box3. intros d Hd. apply (w_dir _ _ _ _ W r d Hr Hd). }
    rewrite map_length, HL. replace (pos <? nlocal (G r)) with true by lia.
    destruct (nth_error l (Z.to_nat pos)) as [[t i]|] eqn:E.
    2:{ apply nth_error_None in E. lia. }
    erewrite nth_error_nth; [|rewrite nth_error_map, E; reflexivity]. cbn [snd].
    destruct (H2 t i (nth_error_In _ _ E)) as (T1 & T2 & T3).
    rewrite nghost_len by auto. fold b. split; [lia|].
    rewrite (lgmap_nth r i t Hr ltac:(lia) T3).
    rewrite wrap_id by (apply (own_in_grid _ _ _ _ W r); auto).
    assert (Et : nth (Z.to_nat pos) (local_indices (G r)) 0 = lin N t).
    { unfold local_indices. rewrite <- H1, map_map. erewrite nth_error_nth; [reflexivity|].
      rewrite nth_error_map, E. cbn [option_map fst]. rewrite (w_lin _ _ _ _ W) by auto. reflexivity. }
    rewrite <- Et. apply (ao_local _ _ _ _ W r pos 0 Hr Hp).
  Qed.

  Lemma l2g_insert_value : forall A junk order (L : Z -> Z -> A) V r pos c,
    Permutation order (zseq 0 size) ->
    (forall r, 0 <= r < size -> subbox (gr_lstart (G r)) (gr_lwidth (G r)) (gr_gstart (G r)) (gr_gwidth (G r))) ->
    0 <= r < size -> 0 <= pos < nlocal (G r) -> 0 <= c < bs ->
    local_to_global_insert G junk order L V (bs * (off G r + pos) + c) = L r (bs * ilocal G junk r pos + c).
  Proof.
    intros A junk order L V r pos c Ho Hs Hr Hp Hc. unfold local_to_global_insert.
    pose proof (w_bs _ _ _ _ W) as Hbs.
    rewrite (fold_left_ext' _ _ _ (fun V r => writes (map (fun p => (snd p, L r (fst p))) (vpairs (blocks (gr_dof (G r)) (l2g_pairs G junk r)))) V))
      by (intros; apply insert_pairs_writes).
    rewrite fold_writes.
    assert (Ho' : forall q, In q order <-> 0 <= q < size).
    { intros q. split; intros H.
      - apply (Permutation_in _ Ho), in_zseq in H. lia.
      - apply (Permutation_in _ (Permutation_sym Ho)), in_zseq. lia. }
    assert (Key : forall q a b, 0 <= q < size -> In (a, b) (vpairs (blocks (gr_dof (G q)) (l2g_pairs G junk q))) ->
       exists k' c', 0 <= k' < nlocal (G q) /\ 0 <= c' < bs /\ a = bs * ilocal G junk q k' + c' /\ b = bs * (off G q + k') + c').
    { intros q a b Hq H. rewrite (w_dof _ _ _ _ W q Hq) in H. apply filter_In in H. destruct H as [H _]. apply in_blocks in H; auto.
      destruct H as (p & c' & Hp' & Hc' & -> & ->). unfold l2g_pairs in Hp'. apply in_map_iff in Hp'.
      destruct Hp' as (k' & <- & Hk'). apply in_zseq in Hk'. cbn [fst snd]. exists k', c'. repeat split; auto; lia. }
    apply writes_spec.
    - intros v' H. apply in_flat_map in H. destruct H as (q & Hq & H). apply Ho' in Hq.
      apply in_map_iff in H. destruct H as ([a b] & E & H). cbn [fst snd] in E. inversion E; subst.
      destruct (Key q _ _ Hq H) as (k' & c' & Hk' & Hc' & -> & Eb).
      destruct (block_inj bs (off G q + k') (off G r + pos) c' c Hbs Hc' Hc ltac:(lia)) as [E1 ->].
      destruct (block_owner_unique _ _ _ _ W q k' r pos Hq Hr Hk' Hp E1) as [-> ->]. reflexivity.
    - apply in_flat_map. exists r. split; [apply Ho'; auto|].
      apply in_map_iff. exists (bs * ilocal G junk r pos + c, bs * (off G r + pos) + c). split; auto.
      destruct (ilocal_spec junk r pos Hr (Hs r Hr) Hp) as [HI _].
      pose proof (off_nonneg _ _ _ _ W r ltac:(lia)) as HO.
      assert (0 <= bs * ilocal G junk r pos) by (apply Z.mul_nonneg_nonneg; lia).
      assert (0 <= bs * (off G r + pos)) by (apply Z.mul_nonneg_nonneg; lia).
      apply filter_In. split; [|cbn [fst snd]; lia]. rewrite (w_dof _ _ _ _ W r Hr).
      apply in_blocks; auto. exists (ilocal G junk r pos, off G r + pos), c. split; [|cbn [fst snd]; auto].
      unfold l2g_pairs. apply in_map_iff. exists pos. split; auto. apply in_zseq. lia.
  Qed.

  Lemma entry_split : forall e, 0 <= e < bs * vol N -> exists r pos c, 0 <= r < size /\ 0 <= pos < nlocal (G r) /\ 0 <= c < bs /\
    e = bs * (off G r + pos) + c.
  Proof.
    intros e He. pose proof (w_bs _ _ _ _ W) as Hbs.
    assert (Hb : 0 <= e / bs < vol N).
    { split; [apply Z.div_pos; lia|apply Z.div_lt_upper_bound; lia]. }
    destruct (block_owner _ _ _ _ W (e/bs) Hb) as (r & pos & A & B & C).
    exists r, pos, (e mod bs). pose proof (Z.mod_pos_bound e bs ltac:(lia)). pose proof (Z.div_mod e bs ltac:(lia)).
    rewrite <- C. auto.
  Qed.

  Lemma g2l_l2g_id : forall A junk order (V V0 : Z -> A) (L0 : Z -> Z -> A),
    Permutation order (zseq 0 size) ->
    (forall r, 0 <= r < size -> subbox (gr_lstart (G r)) (gr_lwidth (G r)) (gr_gstart (G r)) (gr_gwidth (G r))) ->
    (forall r d, 0 <= r < size -> 0 <= d < 3 -> - N d <= gr_gstart (G r) d) ->
    forall e, 0 <= e < bs * vol N ->
    local_to_global_insert G junk order (fun r => global_to_local size G V r (L0 r)) V0 e = V e.
  Proof.
    intros A junk order V V0 L0 Ho Hs Hg e He.
    destruct (entry_split e He) as (r & pos & c & Hr & Hp & Hc & ->).
    rewrite l2g_insert_value by auto.
    destruct (ilocal_spec junk r pos Hr (Hs r Hr) Hp) as [HI HL].
    rewrite g2l_value by auto. rewrite HL. reflexivity.
  Qed.

  (** ** IGALocalToGlobal ADD *)
  Lemma add_blocks_sum : forall r (L V : Z -> R) b c, 0 <= r < size -> 0 <= b -> 0 <= c < bs ->
    (forall d, 0 <= d < 3 -> - N d <= gr_gstart (G r) d) ->
    add_pairs (blocks (gr_dof (G r)) (map (fun p => (snd p, fst p)) (g2l_pairs size G r))) L V (bs * b + c) =
    (V (bs * b + c)%Z + rsum (fun k => if (lgmap size G r k =? b)%Z then L (bs * k + c)%Z else 0%R) (zseq 0 (nghost G r)))%R.
  Proof.
    intros r L V b c Hr Hb Hc Hg. pose proof (w_bs _ _ _ _ W) as Hbs.
    assert (0 <= bs * b) by (apply Z.mul_nonneg_nonneg; lia).
    rewrite add_pairs_spec by lia. f_equal. rewrite (w_dof _ _ _ _ W r Hr).
    unfold blocks. rewrite rsum_flat_map, rsum_map. unfold g2l_pairs. rewrite rsum_map. apply rsum_ext.
    intros k Hk. apply in_zseq in Hk. cbn [fst snd]. rewrite rsum_map. cbn [fst snd].
    assert (0 <= bs * k) by (apply Z.mul_nonneg_nonneg; lia).
    rewrite (rsum_single _ _ (zseq 0 bs) c).
    - replace (0 <=? bs * k + c) with true by lia. cbn [andb].
      destruct (lgmap size G r k =? b) eqn:E.
      + replace (lgmap size G r k) with b by lia. rewrite Z.eqb_refl. reflexivity.
      + replace (bs * lgmap size G r k + c =? bs * b + c) with false; [reflexivity|].
        symmetry. apply Z.eqb_neq. intros K. destruct (block_inj bs (lgmap size G r k) b c c Hbs Hc Hc K). lia.
    - apply NoDup_zseq.
    - apply in_zseq; lia.
    - intros x Hx Hne. apply in_zseq in Hx.
      replace (bs * lgmap size G r k + x =? bs * b + c) with false; [rewrite andb_false_r; reflexivity|].
      symmetry. apply Z.eqb_neq. intros K. destruct (block_inj bs (lgmap size G r k) b x c Hbs ltac:(lia) Hc K). lia.
  Qed.

  Lemma l2g_add_value : forall order (L : Z -> Z -> R) V b c,
    Permutation order (zseq 0 size) ->
    (forall r d, 0 <= r < size -> 0 <= d < 3 -> - N d <= gr_gstart (G r) d) ->
    0 <= b -> 0 <= c < bs ->
    local_to_global_add size G order L V (bs * b + c) =
    (V (bs * b + c)%Z + rsum (fun r => rsum (fun k => if (lgmap size G r k =? b)%Z then L r (bs * k + c)%Z else 0%R)
                              (zseq 0 (nghost G r))) (zseq 0 size))%R.
  Proof.
    intros order L V b c Ho Hg Hb Hc.
    rewrite <- (rsum_perm _ _ _ _ Ho).
    assert (Hin : forall q, In q order -> 0 <= q < size).
    { intros q H. apply (Permutation_in _ Ho), in_zseq in H. lia. }
    clear Ho. unfold local_to_global_add. revert V. induction order as [|r order IH]; intros V; cbn [fold_left].
    - unfold rsum. cbn [map fold_right]. lra.
    - rewrite IH by (intros; apply Hin; right; auto). rewrite rsum_cons.
      rewrite add_blocks_sum; auto; [|apply Hin; left; auto|intros d Hd; apply Hg; auto; apply Hin; left; auto]. lra.
  Qed.

  (** ** Natural vectors *)
  Section Natural.
    Variables (shift asz : Z -> Z) (ast awd : Z -> Z -> Z).
    Hypothesis Hasz : boxes_tile size asz ast awd.
    Hypothesis Hshift : forall d, 0 <= d < 3 -> 0 <= shift d /\ shift d + N d <= asz d.
    Hypothesis Hvis : forall r, 0 <= r < size -> subbox (ast r) (awd r) (fun d => shift d + gr_gstart (G r) d) (gr_gwidth (G r)).
    Hypothesis Hlow : forall r d, 0 <= r < size -> 0 <= d < 3 -> - N d <= gr_gstart (G r) d.

    Lemma tadd_in : forall t, in_box zero3 N t -> in_box zero3 asz (tadd shift t).
    Proof.
      intros [[i j] k] H. unfold in_box, tadd, zero3 in *.
      pose proof (Hshift 0 ltac:(lia)). pose proof (Hshift 1 ltac:(lia)). pose proof (Hshift 2 ltac:(lia)). lia.
    Qed.

    Lemma box_shifted : forall s w, box (fun d => shift d + s d) w = map (tadd shift) (box s w).
    Proof.
      intros s w. unfold box. rewrite !flat_map_concat_map, concat_map, map_map.
      assert (Ez : forall a n d, zseq (shift d + a) n = map (fun x => shift d + x) (zseq a n)).
      { intros a n d. unfold zseq. rewrite map_map. apply map_ext. intros; lia. }
      rewrite (Ez (s 2) (w 2) 2), map_map. f_equal. apply map_ext. intros k.
      rewrite !flat_map_concat_map, concat_map, map_map. rewrite (Ez (s 1) (w 1) 1), map_map. f_equal. apply map_ext. intros j.
      rewrite (Ez (s 0) (w 0) 0), !map_map. reflexivity.
    Qed.

    Lemma n2g_value : forall A order (Wv V : Z -> A) t c, Permutation order (zseq 0 size) ->
      in_box zero3 N t -> 0 <= c < bs ->
      natural_to_global G shift asz order Wv V (bs * ao size G (lin N t) + c) = Wv (bs * lin asz (tadd shift t) + c).
    Proof.
      intros A order Wv V t c Ho Ht Hc. unfold natural_to_global. pose proof (w_bs _ _ _ _ W) as Hbs.
      rewrite (fold_left_ext' _ _ _ (fun V r => writes (map (fun p => (snd p, Wv (fst p))) (vpairs (blocks (gr_dof (G r)) (n2g_pairs G shift asz r)))) V))
        by (intros; apply insert_pairs_writes).
      rewrite fold_writes.
      assert (Ho' : forall q, In q order <-> 0 <= q < size).
      { intros q. split; intros H.
        - apply (Permutation_in _ Ho), in_zseq in H. lia.
        - apply (Permutation_in _ (Permutation_sym Ho)), in_zseq. lia. }
      assert (Key : forall q a b, 0 <= q < size -> (In (a, b) (n2g_pairs G shift asz q) <->
         exists t', owned q t' /\ a = lin asz (tadd shift t') /\ b = ao size G (lin N t'))).
      { intros q a b Hq. unfold n2g_pairs. 
        change (shifted shift (gr_lstart (G q))) with (fun d => shift d + gr_lstart (G q) d). rewrite box_shifted, map_map.
        assert (Hlen : Z.of_nat (length (box (gr_lstart (G q)) (gr_lwidth (G q)))) = nlocal (G q)).
        { apply len_box3. intros d Hd. apply (w_dir _ _ _ _ W q d Hq Hd). }
        assert (Hpos : forall i x, nth_error (box (gr_lstart (G q)) (gr_lwidth (G q))) i = Some x ->
           ao size G (lin N x) = off G q + Z.of_nat i).
        { intros i x E. assert (Hi : (i < length (box (gr_lstart (G q)) (gr_lwidth (G q))))%nat) by (apply nth_error_Some; congruence).
          destruct (ao_local _ _ _ _ W q (Z.of_nat i) 0 Hq ltac:(lia)) as [E1 _]. rewrite Nat2Z.id in E1.
          rewrite <- E1. f_equal. symmetry. unfold local_indices. erewrite nth_error_nth; [reflexivity|].
          rewrite nth_error_map, E. cbn. rewrite (w_lin _ _ _ _ W) by auto. reflexivity. }
        split.
        - intros H. apply In_nth_error in H. destruct H as (i & E).
          assert (Hi : (i < Z.to_nat (nlocal (G q)))%nat).
          { assert (i < length (combine (map (fun x => lin asz (tadd shift x)) (box (gr_lstart (G q)) (gr_lwidth (G q)))) (map (fun pos => off G q + pos)%Z (zseq 0 (nlocal (G q))))))%nat by (apply nth_error_Some; congruence).
            rewrite combine_length, !map_length, length_zseq in H. lia. }
          destruct (nth_error (box (gr_lstart (G q)) (gr_lwidth (G q))) i) as [x|] eqn:Ex.
          2:{ apply nth_error_None in Ex. lia. }
          exists x. split; [apply In_box; eapply nth_error_In; eauto|].
          rewrite (Hpos i x Ex).
          assert (Ec : nth i (combine (map (fun x => lin asz (tadd shift x)) (box (gr_lstart (G q)) (gr_lwidth (G q)))) (map (fun pos => off G q + pos) (zseq 0 (nlocal (G q))))) (0,0)
             = (lin asz (tadd shift x), off G q + Z.of_nat i)).
          { rewrite combine_nth by (rewrite !map_length, length_zseq; lia). f_equal.
            - erewrite nth_error_nth; [reflexivity|]. rewrite nth_error_map, Ex. reflexivity.
            - rewrite nth_indep with (d' := (fun pos => off G q + pos) 0) by (rewrite map_length, length_zseq; lia).
              rewrite map_nth with (f := fun pos => off G q + pos). rewrite nth_zseq by lia. lia. }
          erewrite nth_error_nth in Ec by eauto. inversion Ec. auto.
        - intros (x & Hx & -> & ->). apply In_box in Hx. apply In_nth_error in Hx. destruct Hx as (i & Ex).
          rewrite (Hpos i x Ex).
          assert (Hi : (i < length (box (gr_lstart (G q)) (gr_lwidth (G q))))%nat) by (apply nth_error_Some; congruence).
          apply (nth_error_In _ i).
          rewrite (nth_error_nth' _ (0,0)) by (rewrite combine_length, !map_length, length_zseq; lia).
          f_equal. rewrite combine_nth by (rewrite !map_length, length_zseq; lia). f_equal.
          + erewrite nth_error_nth; [reflexivity|]. rewrite nth_error_map, Ex. reflexivity.
          + rewrite nth_indep with (d' := (fun pos => off G q + pos) 0) by (rewrite map_length, length_zseq; lia).
            rewrite map_nth with (f := fun pos => off G q + pos). rewrite nth_zseq by lia. lia. }
      apply writes_spec.
      - intros v' H. apply in_flat_map in H. destruct H as (q & Hq & H). apply Ho' in Hq.
        apply in_map_iff in H. destruct H as ([a b] & E & H). cbn [fst snd] in E. inversion E; subst.
        apply filter_In in H. destruct H as [H _]. rewrite (w_dof _ _ _ _ W q Hq) in H. apply in_blocks in H; auto.
        destruct H as ([a' b'] & c' & Hp' & Hc' & Ea & Eb). apply Key in Hp'; auto. destruct Hp' as (t' & Ht' & -> & ->).
        cbn [fst snd] in *.
        destruct (block_inj bs (ao size G (lin N t')) (ao size G (lin N t)) c' c Hbs Hc' Hc ltac:(lia)) as [E1 ->].
        pose proof (own_in_grid _ _ _ _ W q t' Hq Ht') as Ht2.
        apply (ao_inj _ _ _ _ W) in E1; try (apply (lin_in_range N); auto).
        apply (lin_inj N) in E1; auto. subst t' a. reflexivity.
      - destruct W as (_ & _ & _ & _ & HT). destruct (HT t Ht) as (q & [Hq Hown] & _).
        apply in_flat_map. exists q. split; [apply Ho'; auto|].
        apply in_map_iff. exists (bs * lin asz (tadd shift t) + c, bs * ao size G (lin N t) + c). split; auto.
        pose proof (ao_range _ _ _ _ W (lin N t) (lin_in_range N t Ht)) as HA.
        pose proof (lin_in_range asz _ (tadd_in t Ht)) as HB.
        assert (0 <= bs * lin asz (tadd shift t)) by (apply Z.mul_nonneg_nonneg; lia).
        assert (0 <= bs * ao size G (lin N t)) by (apply Z.mul_nonneg_nonneg; lia).
        apply filter_In. split; [|cbn [fst snd]; lia]. rewrite (w_dof _ _ _ _ W q Hq).
        apply in_blocks; auto. exists (lin asz (tadd shift t), ao size G (lin N t)), c. split; [|cbn [fst snd]; auto].
        apply Key; auto. exists t. auto.
    Qed.

    Lemma g2n_value : forall A junkg junkn order (V Wv : Z -> A) t c, Permutation order (zseq 0 size) ->
      in_box zero3 asz t -> 0 <= c < bs ->
      global_to_natural size G shift asz ast awd junkg junkn order V Wv (bs * lin asz t + c)
      = V (bs * ao size G (lin N (modbox N (tsub shift t))) + c).
    Proof.
      intros A junkg junkn order V Wv t c Ho Ht Hc. unfold global_to_natural. pose proof (w_bs _ _ _ _ W) as Hbs.
      rewrite (fold_left_ext' _ _ _ (fun V0 r => writes (map (fun p => (snd p, V (fst p))) (vpairs (blocks (gr_dof (G r)) (g2n_pairs size G shift asz ast awd junkg junkn r)))) V0))
        by (intros; apply insert_pairs_writes).
      rewrite fold_writes.
      assert (Ho' : forall q, In q order <-> 0 <= q < size).
      { intros q. split; intros H.
        - apply (Permutation_in _ Ho), in_zseq in H. lia.
        - apply (Permutation_in _ (Permutation_sym Ho)), in_zseq. lia. }
      assert (Key : forall q a b, 0 <= q < size -> (In (a, b) (g2n_pairs size G shift asz ast awd junkg junkn q) <->
         exists t', in_box (ast q) (awd q) t' /\ b = lin asz t' /\ a = ao size G (lin N (modbox N (tsub shift t'))))).
      { intros q a b Hq. pose proof (enum_filter _ _ _ _ (Hvis q Hq)) as HE. cbv zeta in HE.
        unfold g2n_pairs, g2n_written.
        change (shifted shift (gr_gstart (G q))) with (fun d => shift d + gr_gstart (G q) d).
        set (bx := box (fun d => shift d + gr_gstart (G q) d) (gr_gwidth (G q))) in *.
        set (l := filter _ _) in *. destruct HE as [H1 H2].
        assert (HL : Z.of_nat (length l) = vol (awd q)).
        { rewrite <- (map_length fst). rewrite H1. apply len_box3. intros d Hd. destruct Hasz as [K _]. apply (K q Hq d Hd). }
        assert (Hlg : forall t' i, In (t', i) l -> lgmap size G q i = ao size G (lin N (modbox N (tsub shift t')))).
        { intros t' i Hin. destruct (H2 t' i Hin) as (T1 & T2 & T3).
          unfold bx in T3. rewrite box_shifted in T3. rewrite nth_error_map in T3.
          destruct (nth_error (box (gr_gstart (G q)) (gr_gwidth (G q))) (Z.to_nat i)) as [x|] eqn:Ex; [|discriminate].
          cbn [option_map] in T3. assert (Et' : t' = tadd shift x) by congruence.
          rewrite (lgmap_nth q i x Hq ltac:(lia) Ex).
          rewrite wrap_mod by (apply (ghost_low q); auto; eapply nth_error_In; eauto).
          replace (tsub shift t') with x; auto. rewrite Et'. destruct x as [[x0 x1] x2]. unfold tsub, tadd. f_equal; [f_equal|]; lia. }
        rewrite in_map_iff. split.
        - intros (pos & E & Hp). apply in_zseq in Hp. rewrite nth_error_map in E.
          destruct (nth_error l (Z.to_nat pos)) as [[t' i]|] eqn:El; cbn [option_map fst snd] in E.
          2:{ apply nth_error_None in El. lia. }
          inversion E; subst a b. exists t'. pose proof (nth_error_In _ _ El) as Hin.
          split; [apply (H2 t' i Hin)|]. split; auto.
        - intros (t' & Hb & -> & ->). apply In_box in Hb. rewrite <- H1 in Hb. apply in_map_iff in Hb.
          destruct Hb as ([t'' i] & Et & Hin). cbn in Et. subst t''.
          apply In_nth_error in Hin as Hn. destruct Hn as (n & En).
          exists (Z.of_nat n). rewrite Nat2Z.id, nth_error_map, En. cbn [option_map fst snd]. split.
          + rewrite (Hlg t' i Hin). reflexivity.
          + apply in_zseq. assert (n < length l)%nat by (apply nth_error_Some; congruence). lia. }
      apply writes_spec.
      - intros v' H. apply in_flat_map in H. destruct H as (q & Hq & H). apply Ho' in Hq.
        apply in_map_iff in H. destruct H as ([a b] & E & H). cbn [fst snd] in E. inversion E; subst.
        apply filter_In in H. destruct H as [H _]. rewrite (w_dof _ _ _ _ W q Hq) in H. apply in_blocks in H; auto.
        destruct H as ([a' b'] & c' & Hp' & Hc' & Ea & Eb). apply Key in Hp'; auto. destruct Hp' as (t' & Ht' & -> & ->).
        cbn [fst snd] in *.
        destruct (block_inj bs (lin asz t') (lin asz t) c' c Hbs Hc' Hc ltac:(lia)) as [E1 ->].
        apply (lin_inj asz) in E1; auto.
        + subst t' a. reflexivity.
        + destruct Hasz as [K _]. specialize (K q Hq). clear - K Ht'. destruct t' as [[i j] k]. unfold in_box, zero3 in *.
          pose proof (K 0 ltac:(lia)). pose proof (K 1 ltac:(lia)). pose proof (K 2 ltac:(lia)). unfold zero3 in *. lia.
      - destruct Hasz as [K HT]. destruct (HT t Ht) as (q & [Hq Hown] & _).
        apply in_flat_map. exists q. split; [apply Ho'; auto|].
        apply in_map_iff. exists (bs * ao size G (lin N (modbox N (tsub shift t))) + c, bs * lin asz t + c). split; auto.
        pose proof (ao_range _ _ _ _ W _ (lin_in_range N _ (modbox_in _ _ _ _ W (tsub shift t)))) as HA.
        pose proof (lin_in_range asz _ Ht) as HB.
        assert (0 <= bs * ao size G (lin N (modbox N (tsub shift t)))) by (apply Z.mul_nonneg_nonneg; lia).
        assert (0 <= bs * lin asz t) by (apply Z.mul_nonneg_nonneg; lia).
        apply filter_In. split; [|cbn [fst snd]; lia]. rewrite (w_dof _ _ _ _ W q Hq).
        apply in_blocks; auto. exists (ao size G (lin N (modbox N (tsub shift t))), lin asz t), c. split; [|cbn [fst snd]; auto].
        apply Key; auto. exists t. auto.
    Qed.

    Lemma g2n_n2g_id : forall A junkg junkn order order' (V V0 W0 : Z -> A),
      Permutation order (zseq 0 size) -> Permutation order' (zseq 0 size) ->
      forall e, 0 <= e < bs * vol N ->
      natural_to_global G shift asz order' (global_to_natural size G shift asz ast awd junkg junkn order V W0) V0 e = V e.
    Proof.
      intros A junkg junkn order order' V V0 W0 Ho Ho' e He.
      pose proof (w_bs _ _ _ _ W) as Hbs.
      assert (Hb : 0 <= e / bs < vol N).
      { split; [apply Z.div_pos; lia|apply Z.div_lt_upper_bound; lia]. }
      destruct (ao_bij _ _ _ _ W (e/bs) Hb) as (x & [Hx Ex] & _).
      pose proof (Z.mod_pos_bound e bs ltac:(lia)) as Hm. pose proof (Z.div_mod e bs ltac:(lia)) as Hd.
      rewrite <- Ex in Hd. rewrite Hd at 1 2.
      destruct (lin_unlin N x) as [E B].
      + pose proof (w_N _ _ _ _ W 0 ltac:(lia)); lia.
      + pose proof (w_N _ _ _ _ W 1 ltac:(lia)); lia.
      + pose proof (w_N _ _ _ _ W 2 ltac:(lia)); lia.
      + auto.
      + rewrite <- E. set (c := e mod bs) in *.
        rewrite n2g_value by auto. rewrite g2n_value by (auto using tadd_in).
        replace (tsub shift (tadd shift (unlin N x))) with (unlin N x).
        * rewrite (modbox_id N); auto.
        * destruct (unlin N x) as [[i j] k]. unfold tsub, tadd. f_equal; [f_equal|]; lia.
    Qed.

    Lemma n2g_g2n_value : forall A junkg junkn order order' (Wv V0 W0 : Z -> A) t c,
      Permutation order (zseq 0 size) -> Permutation order' (zseq 0 size) ->
      in_box zero3 asz t -> 0 <= c < bs ->
      global_to_natural size G shift asz ast awd junkg junkn order (natural_to_global G shift asz order' Wv V0) W0 (bs * lin asz t + c) =
      Wv (bs * lin asz (tadd shift (modbox N (tsub shift t))) + c).
    Proof.
      intros A junkg junkn order order' Wv V0 W0 t c Ho Ho' Ht Hc.
      rewrite g2n_value by auto. rewrite n2g_value; auto. apply (modbox_in _ _ _ _ W).
    Qed.
  End Natural.
End World.
