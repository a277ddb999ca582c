(** Proofs about the DM of an IGA. *)
From Coq Require Import ZArith String List Bool Lia.
From Verif Require Import Prelude Box GridModel GridSpec GridProofs DmModel DmSpec.
Import ListNotations.
Open Scope Z_scope.

Lemma nth_map_zseq : forall (A : Type) (x : Z -> A) s n k d, 0 <= k < n -> nth (Z.to_nat k) (map x (zseq s n)) d = x (s + k).
Proof.
  intros A x s n k d Hk. rewrite nth_indep with (d' := x 0) by (rewrite map_length, length_zseq; lia).
  rewrite map_nth, nth_zseq by lia. f_equal. lia.
Qed.

(** ** Layout *)
Lemma layout_start_off : forall G bs n, (forall r, 0 <= r < n -> gr_dof (G r) = bs) -> 0 <= n ->
  layout_start G n = bs * off G n.
Proof.
  intros G bs n H Hn. revert n Hn H. apply (natlike_ind (fun n => (forall r, 0 <= r < n -> gr_dof (G r) = bs) ->
    layout_start G n = bs * off G n)).
  - intros _. unfold layout_start, off. rewrite !zsum_0. lia.
  - intros n Hn IH H. unfold Z.succ, layout_start, off in *. rewrite !zsum_S by lia.
    rewrite IH by (intros; apply H; lia). unfold layout_size. rewrite H by lia. ring.
Qed.

Lemma off_next : forall G r, 0 <= r -> off G (r + 1) = off G r + nlocal (G r).
Proof. intros. unfold off. rewrite zsum_S by auto. f_equal. Qed.

Section W.
  Variables (size bs : Z) (N : Z -> Z) (G : Z -> grid).
  Hypothesis W : grid_world size bs N G.

  Lemma world_dof : forall r, 0 <= r < size -> gr_dof (G r) = bs.
  Proof using W. intros r Hr. destruct W as (_ & _ & _ & H & _). apply (H r Hr). Qed.
  Lemma world_bs : 1 <= bs.
  Proof using W. destruct W as (_ & H & _). exact H. Qed.
  Lemma world_size : 1 <= size.
  Proof using W. destruct W as (H & _). exact H. Qed.
  Lemma world_nlocal : forall r, 0 <= r < size -> 0 <= nlocal (G r).
  Proof using W.
    intros r Hr. destruct W as (_ & _ & _ & H & _). destruct (H r Hr) as [_ K].
    pose proof (K 0 ltac:(lia)) as K0. pose proof (K 1 ltac:(lia)) as K1. pose proof (K 2 ltac:(lia)) as K2.
    unfold nlocal, vol. apply Z.mul_nonneg_nonneg; [apply Z.mul_nonneg_nonneg|]; lia.
  Qed.

  Lemma start_div : forall r, 0 <= r <= size -> layout_start G r / bs = off G r.
  Proof using W.
    intros r Hr. pose proof world_bs. rewrite (layout_start_off G bs) by (try lia; intros; apply world_dof; lia).
    rewrite Z.mul_comm. apply Z.div_mul. lia.
  Qed.

  Lemma off_nonneg : forall r, 0 <= r <= size -> 0 <= off G r.
  Proof using W.
    intros r [Hr Hs]. revert r Hr Hs. apply (natlike_ind (fun r => r <= size -> 0 <= off G r)).
    - intros _. unfold off. rewrite zsum_0. lia.
    - intros r Hr IH H. unfold Z.succ in *. rewrite off_next by lia.
      pose proof (world_nlocal r ltac:(lia)). specialize (IH ltac:(lia)). lia.
  Qed.

  Lemma off_mono : forall r q, 0 <= r <= q -> q <= size -> off G r <= off G q.
  Proof using W.
    intros r q H Hq.
    assert (A : forall k, 0 <= k -> r + k <= size -> off G r <= off G (r + k)).
    { apply (natlike_ind (fun k => r + k <= size -> off G r <= off G (r + k))).
      - intros _. rewrite Z.add_0_r. lia.
      - intros k Hk IH Hq'. unfold Z.succ in *. replace (r + (k + 1)) with (r + k + 1) in * by lia.
        rewrite off_next by lia. pose proof (world_nlocal (r + k) ltac:(lia)). specialize (IH ltac:(lia)). lia. }
    specialize (A (q - r) ltac:(lia)). replace (r + (q - r)) with q in A by lia. apply A. lia.
  Qed.

  (** ** Index sets *)
  Lemma sub_is_eq : forall nf fields r, 0 <= r < size ->
    sub_is G nf fields r = flat_map (fun j => map (fun i => j * bs + fields i) (zseq 0 nf)) (zseq (off G r) (nlocal (G r))).
  Proof using W.
    intros nf fields r Hr. unfold sub_is. rewrite world_dof by auto. rewrite !start_div by lia.
    rewrite off_next by lia. replace (off G r + nlocal (G r) - off G r) with (nlocal (G r)) by lia. reflexivity.
  Qed.

  Lemma field_is_eq : forall i r, 0 <= r < size ->
    field_is G i r = map (fun k => off G r + i + k * bs) (zseq 0 (nlocal (G r))).
  Proof using W.
    intros i r Hr. unfold field_is, stride. rewrite world_dof by auto. rewrite !start_div by lia.
    rewrite off_next by lia. replace (off G r + nlocal (G r) - off G r) with (nlocal (G r)) by lia. reflexivity.
  Qed.

  Lemma ranks_concat : forall (B : Type) (f : Z -> list B) n, 0 <= n <= size ->
    flat_map (fun r => flat_map f (zseq (off G r) (nlocal (G r)))) (zseq 0 n) = flat_map f (zseq 0 (off G n)).
  Proof using W.
    intros B f n [Hn Hs]. revert n Hn Hs. apply (natlike_ind (fun n => n <= size ->
      flat_map (fun r => flat_map f (zseq (off G r) (nlocal (G r)))) (zseq 0 n) = flat_map f (zseq 0 (off G n)))).
    - intros _. rewrite zseq_nil by lia. unfold off. rewrite zsum_0, zseq_nil by lia. reflexivity.
    - intros n Hn IH H. unfold Z.succ in *. rewrite zseq_snoc by auto. rewrite flat_map_app, IH by lia.
      cbn [flat_map]. rewrite app_nil_r, Z.add_0_l. rewrite off_next by lia.
      rewrite (zseq_app 0 (off G n) (nlocal (G n))), flat_map_app.
      + rewrite Z.add_0_l. reflexivity.
      + apply off_nonneg. lia.
      + apply world_nlocal. lia.
  Qed.

  Lemma sub_is_all : forall nf fields,
    is_global size (sub_is G nf fields) = flat_map (fun j => map (fun i => j * bs + fields i) (zseq 0 nf)) (zseq 0 (off G size)).
  Proof using W.
    intros nf fields. unfold is_global. pose proof world_size.
    rewrite <- (ranks_concat _ _ size) by lia.
    assert (K : forall r, In r (zseq 0 size) -> 0 <= r < size) by (intros r Hr; apply in_zseq in Hr; lia).
    induction (zseq 0 size) as [|r l IH]; [reflexivity|]. cbn [flat_map].
    rewrite sub_is_eq by (apply K; left; reflexivity). f_equal. apply IH. intros q Hq. apply K. right. exact Hq.
  Qed.

  Lemma len_blocks : forall nf (h : Z -> Z -> Z) s n, 0 <= nf -> 0 <= n ->
    Z.of_nat (length (flat_map (fun j => map (h j) (zseq 0 nf)) (zseq s n))) = nf * n.
  Proof using.
    intros nf h s n Hf Hn. revert n Hn. apply (natlike_ind (fun n =>
      Z.of_nat (length (flat_map (fun j => map (h j) (zseq 0 nf)) (zseq s n))) = nf * n)).
    - rewrite (zseq_nil s 0) by lia. cbn. lia.
    - intros n Hn IH. unfold Z.succ. rewrite zseq_snoc by auto. rewrite flat_map_app, app_length.
      cbn [flat_map]. rewrite app_nil_r, map_length. rewrite Nat2Z.inj_add, IH.
      unfold zseq. rewrite map_length, seq_length. nia.
  Qed.

  Lemma nth_blocks : forall nf (h : Z -> Z -> Z) T b k, 0 <= b < T -> 0 <= k < nf ->
    nth (Z.to_nat (nf * b + k)) (flat_map (fun j => map (h j) (zseq 0 nf)) (zseq 0 T)) 0 = h b k.
  Proof using.
    intros nf h T b k Hb Hk.
    pose proof (len_blocks nf h 0 b ltac:(lia) ltac:(lia)) as L.
    assert (E : Z.to_nat (nf * b + k) = (length (flat_map (fun j => map (h j) (zseq 0 nf)) (zseq 0 b)) + Z.to_nat k)%nat).
    { generalize dependent (length (flat_map (fun j => map (h j) (zseq 0 nf)) (zseq 0 b))). intros m L.
      rewrite <- L. lia. }
    rewrite E.
    assert (LB : (Z.to_nat k < length (map (h b) (zseq 0 nf)))%nat).
    { rewrite map_length. unfold zseq. rewrite map_length, seq_length. lia. }
    rewrite (nth_flat_map_zseq Z (fun j => map (h j) (zseq 0 nf)) T b (Z.to_nat k) 0) by auto.
    rewrite nth_map_zseq by auto. f_equal.
  Qed.
End W.

(** ** Derived IGAs *)
Definition clone_of (map : Z) (g : iga) (dof : Z) : iga :=
  mk_iga (g_dim g) (g_nsd g) dof true (Some VECSTANDARD) (Some (if 1 <? dof then MATBAIJ else MATAIJ))
         None (g_size g) (fun r => with_dof dof (g_nodes g r)) map.

Lemma clone_eq : forall map g dof, g_setup g = true -> 1 <= g_dim g -> 1 <= dof ->
  IGAClone map g dof = (Ok, clone_of map g dof).
Proof.
  intros map g dof HS HD Hd. unfold IGAClone. rewrite HS. cbn [negb].
  replace (0 <? dof) with true by lia. unfold IGASetUp. cbn [g_setup g_dim g_dof].
  replace (g_dim g <? 1) with false by lia. replace (dof <? 1) with false by lia. reflexivity.
Qed.

Lemma clone_dof0 : forall map g dof, g_setup g = true -> 1 <= g_dim g -> 1 <= g_dof g -> dof <= 0 ->
  IGAClone map g dof = (Ok, clone_of map g (g_dof g)).
Proof.
  intros map g dof HS HD Hg Hd. rewrite <- clone_eq by auto. unfold IGAClone. rewrite HS. cbn [negb].
  replace (0 <? dof) with false by lia. replace (0 <? g_dof g) with true by lia. reflexivity.
Qed.

(** The names are copied one after the other. *)
Lemma copy_names_ok : forall dbg f fields n g,
  (forall i, 0 <= i < n -> n <= g_dof g) ->
  (dbg = false \/ forall i, 0 <= i < n -> f (fields i) <> None) -> 0 <= n ->
  exists g', copy_names dbg f fields (zseq 0 n) g = (Ok, g') /\
    g' = mk_iga (g_dim g) (g_nsd g) (g_dof g) (g_setup g) (g_vectype g) (g_mattype g) (g_names g') (g_size g) (g_nodes g) (g_lgmap g) /\
    forall i, name_of g' i = if (0 <=? i) && (i <? n) then f (fields i) else name_of g i.
Proof.
  intros dbg f fields n g Hd Hn H0.
  assert (A : forall k, 0 <= k -> forall s g, 0 <= s -> s + k <= n ->
    (forall i, 0 <= i < n -> n <= g_dof g) ->
    exists g', copy_names dbg f fields (zseq s k) g = (Ok, g') /\
      g' = mk_iga (g_dim g) (g_nsd g) (g_dof g) (g_setup g) (g_vectype g) (g_mattype g) (g_names g') (g_size g) (g_nodes g) (g_lgmap g) /\
      forall i, name_of g' i = if (s <=? i) && (i <? s + k) then f (fields i) else name_of g i).
  { apply (natlike_ind (fun k => forall s g, 0 <= s -> s + k <= n -> (forall i, 0 <= i < n -> n <= g_dof g) ->
      exists g', copy_names dbg f fields (zseq s k) g = (Ok, g') /\
      g' = mk_iga (g_dim g) (g_nsd g) (g_dof g) (g_setup g) (g_vectype g) (g_mattype g) (g_names g') (g_size g) (g_nodes g) (g_lgmap g) /\
      forall i, name_of g' i = if (s <=? i) && (i <? s + k) then f (fields i) else name_of g i)).
    - intros s g1 Hs Hk Hg. rewrite zseq_nil by lia. exists g1. split; [reflexivity|]. split; [destruct g1; reflexivity|].
      intros i. replace ((s <=? i) && (i <? s + 0)) with false by lia. reflexivity.
    - intros k Hk IH s g1 Hs Hsk Hg. unfold Z.succ in *. rewrite zseq_cons by lia. cbn [copy_names].
      replace (k + 1 - 1) with k by lia. specialize (Hg s ltac:(lia)).
      assert (E : exists g2, IGASetFieldName dbg g1 s (f (fields s)) = (Ok, g2) /\
        g2 = mk_iga (g_dim g1) (g_nsd g1) (g_dof g1) (g_setup g1) (g_vectype g1) (g_mattype g1) (g_names g2) (g_size g1) (g_nodes g1) (g_lgmap g1) /\
        forall i, name_of g2 i = if i =? s then f (fields s) else name_of g1 i).
      { unfold IGASetFieldName. replace (g_dof g1 <? 1) with false by lia.
        replace ((s <? 0) || (g_dof g1 <=? s)) with false by lia.
        set (h := mk_iga _ _ _ _ _ _ _ _ _ _). exists h. split.
        - destruct dbg, (f (fields s)) eqn:F; try reflexivity. destruct Hn as [Hn|Hn]; [discriminate|].
          exfalso. apply (Hn s); [lia|exact F].
        - split; [reflexivity|]. intros i. unfold h, name_of. cbn [g_names]. destruct (i =? s); [reflexivity|].
          destruct (g_names g1); reflexivity. }
      destruct E as (g2 & E & E2 & E3). rewrite E.
      destruct (IH (s + 1) g2) as (g3 & K1 & K2 & K3); try lia.
      { intros i Hi. rewrite E2. cbn [g_dof]. lia. }
      exists g3. split; [exact K1|]. split.
      + rewrite K2 at 1. rewrite E2. cbn. reflexivity.
      + intros i. rewrite K3, E3. destruct (i =? s) eqn:Q.
        * apply Z.eqb_eq in Q. subst i. replace ((s + 1 <=? s) && (s <? s + 1 + k)) with false by lia.
          replace ((s <=? s) && (s <? s + (k + 1))) with true by lia. reflexivity.
        * replace ((s + 1 <=? i) && (i <? s + 1 + k)) with ((s <=? i) && (i <? s + (k + 1))) by lia. reflexivity. }
  destruct (A n H0 0 g ltac:(lia) ltac:(lia) Hd) as (g' & K1 & K2 & K3).
  exists g'. split; [exact K1|]. split; [exact K2|]. intros i. rewrite K3. reflexivity.
Qed.

Lemma fields_ok_true : forall g nf fields, (forall i, 0 <= i < nf -> 0 <= fields i < g_dof g) -> fields_ok g nf fields = true.
Proof.
  intros g nf fields H. unfold fields_ok. apply forallb_forall. intros i Hi. apply in_zseq in Hi.
  specialize (H i ltac:(lia)). lia.
Qed.
Lemma fields_ok_false : forall g nf fields i, 0 <= i < nf -> ~ 0 <= fields i < g_dof g -> fields_ok g nf fields = false.
Proof.
  intros g nf fields i Hi H. unfold fields_ok. apply not_true_iff_false. intros K.
  rewrite forallb_forall in K. specialize (K i). rewrite in_zseq in K. specialize (K ltac:(lia)). lia.
Qed.

(** A DM made from an IGA that is set up. *)
Definition dm_of (g : iga) : dm :=
  mk_dm (Some g) true (g_dof g) (g_dim g) (if 1 <=? g_nsd g then g_nsd g else g_dim g) (g_vectype g) (g_mattype g)
        (Some (g_lgmap g)).
Lemma DMIGACreate_eq : forall g, g_setup g = true -> DMIGACreate g = (Ok, dm_of g).
Proof.
  intros g H. unfold DMIGACreate. rewrite H. unfold DMSetUp. cbn [d_setup]. unfold DMSetUp_IGA. cbn [d_iga].
  unfold IGASetUp. rewrite H. reflexivity.
Qed.

Lemma SubDM_eq : forall dbg map d g nf fields,
  d_iga d = Some g -> g_setup g = true -> 1 <= g_dim g -> 1 <= nf ->
  (forall i, 0 <= i < nf -> 0 <= fields i < g_dof g) ->
  (dbg = false \/ g_names g = None \/ forall i, 0 <= i < nf -> name_of g (fields i) <> None) ->
  exists n, DMCreateSubDM dbg map d nf fields =
              (Ok, (List.map (sub_is (g_nodes g) nf fields) (zseq 0 (g_size g)), dm_of n)) /\
    n = mk_iga (g_dim g) (g_nsd g) nf true (Some VECSTANDARD) (Some (if 1 <? nf then MATBAIJ else MATAIJ))
               (g_names n) (g_size g) (fun r => with_dof nf (g_nodes g r)) map /\
    forall i, 0 <= i < nf -> name_of n i = name_of g (fields i).
Proof.
  intros dbg map d g nf fields Hi HS HD Hnf HF HN. unfold DMCreateSubDM. rewrite Hi.
  rewrite fields_ok_true by auto. cbn [negb]. rewrite clone_eq by auto.
  destruct (g_names g) as [f|] eqn:EN.
  - destruct (copy_names_ok dbg f fields nf (clone_of map g nf)) as (n & K1 & K2 & K3).
    + intros. cbn. lia.
    + destruct HN as [HN|[HN|HN]]; [left; exact HN|discriminate|right].
      intros i Hi'. specialize (HN i Hi'). unfold name_of in HN. rewrite EN in HN. exact HN.
    + lia.
    + rewrite K1. rewrite DMIGACreate_eq by (rewrite K2; reflexivity). exists n.
      split; [reflexivity|]. split; [exact K2|]. intros i Hi'. rewrite K3.
      replace ((0 <=? i) && (i <? nf)) with true by lia. unfold name_of. rewrite EN. reflexivity.
  - rewrite DMIGACreate_eq by reflexivity. exists (clone_of map g nf). split; [reflexivity|]. split; [reflexivity|].
    intros i Hi'. unfold name_of. rewrite EN. reflexivity.
Qed.

(** Changing the number of components does not change the numbering of the nodes. *)
Lemma nlocal_with_dof : forall dof g, nlocal (with_dof dof g) = nlocal g.
Proof. reflexivity. Qed.
Lemma ao_with_dof : forall size dof G x, ao size (fun r => with_dof dof (G r)) x = ao size G x.
Proof. reflexivity. Qed.
Lemma world_with_dof : forall size bs dof N G, grid_world size bs N G -> 1 <= dof ->
  grid_world size dof N (fun r => with_dof dof (G r)).
Proof.
  intros size bs dof N G (A & B & C & D & E) Hd. split; [exact A|]. split; [exact Hd|]. split; [exact C|]. split; [|exact E].
  intros r Hr. split; [reflexivity|]. apply (D r Hr).
Qed.

(** ** A DM describes its IGA *)
Definition sound (d : dm) : Prop :=
  (forall g, d_iga d = Some g -> usable g) /\
  (d_setup d = true -> exists g, d_iga d = Some g /\ g_setup g = true /\ describes d g).

Lemma usable_setup : forall nodes map g g', usable g -> IGASetUp nodes map g = (Ok, g') -> usable g' /\ g_setup g' = true.
Proof.
  intros nodes map g g' U H. unfold IGASetUp in H. destruct (g_setup g) eqn:ES.
  - injection H as <-. auto.
  - destruct (g_dim g <? 1) eqn:ED; [discriminate|]. injection H as <-. split; [|reflexivity].
    intros _. cbn. destruct (g_dof g <? 1) eqn:Q; lia.
Qed.

Lemma setup_iga_sound : forall opts nodes map d d', (forall g, d_iga d = Some g -> usable g) -> usable (snd opts) ->
  DMSetUp_IGA opts nodes map d = (Ok, d') ->
  exists g, d_iga d' = Some g /\ usable g /\ g_setup g = true /\ describes d' g /\ d_setup d' = d_setup d.
Proof.
  intros opts nodes map d d' U UO H. unfold DMSetUp_IGA in H.
  destruct (match d_iga d with Some g => (Ok, g) | None => opts end) as [s g] eqn:E.
  assert (Ug : s = Ok -> usable g).
  { intros ->. destruct (d_iga d) as [g0|] eqn:D; [injection E as ->; apply U; reflexivity|]. rewrite E in UO. exact UO. }
  destruct s; try discriminate. specialize (Ug eq_refl).
  destruct (IGASetUp nodes map g) as [s g1] eqn:E1. destruct s; try discriminate.
  destruct (usable_setup _ _ _ _ Ug E1) as [U1 S1].
  injection H as <-. exists g1. cbn. split; [reflexivity|]. split; [exact U1|]. split; [exact S1|]. split; [|reflexivity].
  repeat split.
Qed.

Lemma setup_sound : forall opts nodes map d d', sound d -> usable (snd opts) ->
  DMSetUp opts nodes map d = (Ok, d') -> sound d'.
Proof.
  intros opts nodes map d d' [U S] UO H. unfold DMSetUp in H. destruct (d_setup d) eqn:ES.
  - injection H as <-. split; auto.
  - destruct (DMSetUp_IGA opts nodes map d) as [s d1] eqn:E. destruct s; try discriminate.
    destruct (setup_iga_sound _ _ _ _ _ U UO E) as (g & I & Ug & Sg & D & _).
    injection H as <-. split; [cbn; intros g' I'; rewrite I in I'; injection I' as <-; exact Ug|].
    intros _. exists g. cbn. split; [exact I|]. split; [exact Sg|]. exact D.
Qed.

Lemma create_sound : forall g d, usable g -> DMIGACreate g = (Ok, d) -> sound d.
Proof.
  intros g d U H. destruct (g_setup g) eqn:ES.
  - rewrite DMIGACreate_eq in H by exact ES. injection H as <-. split; [cbn; intros g' [= <-]; exact U|].
    intros _. exists g. cbn. repeat split; auto.
  - unfold DMIGACreate in H. rewrite ES in H. injection H as <-. split; [cbn; intros g' [= <-]; exact U|discriminate].
Qed.

Lemma clone_usable : forall map g dof n, usable g -> IGAClone map g dof = (Ok, n) -> usable n /\ g_setup n = true.
Proof.
  intros map g dof n U H. unfold IGAClone in H. destruct (g_setup g) eqn:ES; cbn [negb] in H; [|discriminate].
  eapply usable_setup; [|exact H]. intros K. discriminate K.
Qed.

Lemma set_vectype_id : forall g, set_vectype g (g_vectype g) = g.
Proof. intros []; reflexivity. Qed.
Lemma set_mattype_id : forall g, set_mattype g (g_mattype g) = g.
Proof. intros []; reflexivity. Qed.
Lemma put_iga_id : forall d g, d_iga d = Some g -> put_iga d g = d.
Proof. intros [] g H. cbn in H. subst. reflexivity. Qed.

Lemma sound_types : forall d g g', sound d -> d_iga d = Some g ->
  g_setup g' = g_setup g -> g_dim g' = g_dim g -> g_nsd g' = g_nsd g -> g_dof g' = g_dof g -> g_lgmap g' = g_lgmap g ->
  sound (put_iga d g').
Proof.
  intros d g g' [U S] I E1 E2 E3 E4 E5. split.
  - cbn. intros g0 [= <-]. specialize (U g I). unfold usable in *. rewrite E1, E2, E4. exact U.
  - cbn. intros H. destruct (S H) as (g0 & I0 & S0 & D). rewrite I in I0. injection I0 as <-. exists g'.
    split; [reflexivity|]. rewrite E1. split; [exact S0|]. unfold describes in *. cbn. rewrite E2, E3, E4, E5. exact D.
Qed.

Lemma made_sound : forall d, made d -> sound d.
Proof.
  intros d M. induction M as [|g d U H|d g d' M IH U H|d t M IH|d t M IH|opts nodes map d d' M IH U H|
    opts load nodes map d d' M IH U L H|ok d s d' v M IH H|ok d s d' v M IH H|map d d' M IH H|map d d' M IH H|
    dbg map d nf fields is d' M IH H].
  - split; [discriminate|discriminate].
  - eapply create_sound; eauto.
  - unfold DMIGASetIGA in H. destruct (d_iga d) as [g0|] eqn:I; [discriminate|]. injection H as <-.
    destruct IH as [_ S]. split; [cbn; intros g' [= <-]; exact U|]. cbn. intros K. destruct (S K) as (g1 & I1 & _).
    rewrite I in I1. discriminate.
  - exact IH.
  - exact IH.
  - eapply setup_sound; eauto.
  - unfold DMLoad in H. destruct (match d_iga d with Some g => (Ok, g) | None => opts end) as [s g] eqn:E.
    destruct s; try discriminate. destruct (load g) as [s g1] eqn:E1. destruct s; try discriminate.
    destruct (L _ _ E1) as [U1 S1].
    match type of H with context [DMSetUp_IGA opts nodes map ?x] => set (d1 := x) in * end.
    cbn [d_setup] in H. destruct (d_setup d1) eqn:ES.
    + assert (Ud : forall g, d_iga d1 = Some g -> usable g) by (intros g' [= <-]; exact U1).
      destruct (setup_iga_sound _ _ _ _ _ Ud U H) as (g2 & I & Ug & Sg & D & _).
      split; [intros g' I'; rewrite I in I'; injection I' as <-; exact Ug|]. intros _. exists g2. auto.
    + eapply setup_sound; [|exact U|exact H]. split; [intros g' [= <-]; exact U1|].
      intros K. rewrite K in ES. discriminate.
  - unfold DMCreateVector in H. destruct (d_iga d) as [g|] eqn:I; [|injection H as <- <- <-; exact IH].
    destruct (IGACreateVec ok _) as [s1 v1] eqn:E.
    destruct s1; injection H as <- <- <-; destruct (d_vectype d) as [t|]; (eapply sound_types; [exact IH|exact I|..]); reflexivity.
  - unfold DMCreateMatrix in H. destruct (d_iga d) as [g|] eqn:I; [|injection H as <- <- <-; exact IH].
    destruct (IGACreateMat ok _) as [s1 v1] eqn:E.
    destruct s1; injection H as <- <- <-; destruct (d_mattype d) as [t|]; (eapply sound_types; [exact IH|exact I|..]); reflexivity.
  - unfold DMClone in H. destruct (d_iga d) as [g|] eqn:I; [|discriminate].
    destruct (IGAClone map g (g_dof g)) as [s n] eqn:E. destruct s; try discriminate.
    destruct IH as [U0 _]. destruct (clone_usable _ _ _ _ (U0 g I) E) as [Un Sn].
    eapply setup_sound; [| |exact H]; [split; [cbn; intros g' [= <-]; exact Un|discriminate]|exact (U0 g I)].
  - unfold DMCreateCoordinateDM in H. destruct (d_iga d) as [g|] eqn:I; [|discriminate].
    destruct (IGAClone map g _) as [s n] eqn:E. destruct s; try discriminate.
    destruct IH as [U0 _]. destruct (clone_usable _ _ _ _ (U0 g I) E) as [Un Sn]. eapply create_sound; eauto.
  - unfold DMCreateSubDM in H. destruct (d_iga d) as [g|] eqn:I; [|discriminate].
    destruct (negb (fields_ok g nf fields)); [discriminate|].
    destruct (IGAClone map g nf) as [s n] eqn:E. destruct s; try discriminate.
    destruct IH as [U0 _]. destruct (clone_usable _ _ _ _ (U0 g I) E) as [Un Sn].
    assert (A : forall l n n', usable n -> (forall f, copy_names dbg f fields l n = (Ok, n') -> usable n')).
    { clear. induction l as [|i l IH]; intros n n' U f H; cbn [copy_names] in H; [injection H as <-; exact U|].
      destruct (IGASetFieldName dbg n i (f (fields i))) as [s g] eqn:E. destruct s; try discriminate.
      apply (IH g n') with (f := f); [|exact H]. unfold IGASetFieldName in E.
      assert (G : usable g \/ g = n).
      { destruct dbg, (f (fields i)); try discriminate E;
          (destruct (g_dof n <? 1); [discriminate E|]; destruct ((i <? 0) || (g_dof n <=? i)); [discriminate E|];
           injection E as <-; left; exact U). }
      destruct G as [G| ->]; assumption. }
    destruct (g_names g) as [f|].
    + destruct (copy_names dbg f fields (zseq 0 nf) n) as [s n'] eqn:EC. destruct s; try discriminate.
      specialize (A _ _ _ Un f EC). destruct (DMIGACreate n') as [s e] eqn:ED. injection H as -> _ ->.
      eapply create_sound; eauto.
    + destruct (DMIGACreate n) as [s e] eqn:ED. injection H as -> _ ->. eapply create_sound; eauto.
Qed.
