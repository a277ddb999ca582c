(** Lemmas about saving and loading arrays on the geometry grid. *)
From Coq Require Import ZArith List Bool Lia Reals Lra Permutation.
From Coq Require Import ZifyBool ZifyNat.
From Verif Require Import Prelude RealOrd Box AxisModel AxisSpec AxisProofs AxisInitModel AxisInitProofs AxisProofs2 PartModel SetupModel
  GridModel GridSpec GridProofs GridProofs2 IOModel.
Import ListNotations.
Open Scope Z_scope.

(** * Files *)
Lemma rd_scalars_app : forall l f, rd_scalars (length l) (map WScalar l ++ f) = Some (l, f).
Proof. induction l as [|x l IH]; intros f; cbn [length map app rd_scalars]; [reflexivity|]. rewrite IH. reflexivity. Qed.
Lemma rd_reals_app : forall l f, rd_reals (length l) (map WReal l ++ f) = Some (l, f).
Proof. induction l as [|x l IH]; intros f; cbn [length map app rd_reals]; [reflexivity|]. rewrite IH. reflexivity. Qed.

Lemma rd_scalars_fun : forall (x : Z -> R) s n f,
  rd_scalars (Z.to_nat n) (map (fun e => WScalar (x e)) (zseq s n) ++ f) = Some (map x (zseq s n), f).
Proof.
  intros x s n f. rewrite <- (map_map x WScalar). rewrite <- (rd_scalars_app (map x (zseq s n)) f) at 1.
  rewrite map_length, length_zseq. reflexivity.
Qed.
Lemma nth_map_zseq : forall (A : Type) (x : Z -> A) s n k d, 0 <= k < n -> nth (Z.to_nat k) (map x (zseq s n)) d = x (s + k).
Proof.
  intros A x s n k d Hk. rewrite nth_indep with (d' := x 0) by (rewrite map_length, length_zseq; lia).
  rewrite map_nth, nth_zseq by lia. f_equal. lia.
Qed.

Lemma vec_view_load : forall n old x f, exists y,
  vec_load n old (vec_view false n x ++ f) = Some (y, f) /\ forall e, 0 <= e < n -> y e = x e.
Proof.
  intros n old x f. unfold vec_view. rewrite <- app_assoc. unfold vec_load. cbn [app rd_int].
  rewrite Z.eqb_refl. cbn [negb rd_int]. rewrite Z.eqb_refl. cbn [negb]. rewrite rd_scalars_fun.
  eexists. split; [reflexivity|]. intros e He. cbv beta. replace ((0 <=? e) && (e <? n)) with true by lia.
  rewrite nth_map_zseq by lia. f_equal.
Qed.

Section Skip.
  Variables (size : Z) (range : Z -> Z).
  Hypothesis Hsize : 1 <= size.
  Hypothesis Hr0 : range 0 = 0.
  Hypothesis Hmono : forall r, 0 <= r < size -> range r <= range (r+1).

  Lemma load_step_view : forall x f a i, 0 <= i < size ->
    exists b, load_skip_step range (Some (a, map (fun e => WScalar (x e)) (zseq (range i) (range (i+1) - range i)) ++ f)) i = Some (b, f) /\
      (forall k, 0 <= k < range (i+1) - range i -> b i k = x (range i + k)) /\ (forall r k, r <> i -> b r k = a r k).
  Proof.
    intros x f a i Hi. unfold load_skip_step. rewrite rd_scalars_fun. eexists. split; [reflexivity|]. split.
    - intros k Hk. cbv beta. replace ((i =? i) && (0 <=? k) && (k <? range (i+1) - range i)) with true by lia.
      apply nth_map_zseq. lia.
    - intros r k Hne. cbv beta. replace (r =? i) with false by lia. reflexivity.
  Qed.

  Lemma range_le : forall i, 0 <= i <= size -> 0 <= range i.
  Proof.
    intros i Hi. assert (K : forall n, Z.of_nat n <= size -> 0 <= range (Z.of_nat n)).
    { induction n as [|n IH]; intros Hn; [change (Z.of_nat 0) with 0; lia|].
      specialize (IH ltac:(lia)). pose proof (Hmono (Z.of_nat n) ltac:(lia)). replace (Z.of_nat (S n)) with (Z.of_nat n + 1) by lia. lia. }
    specialize (K (Z.to_nat i) ltac:(lia)). rewrite Z2Nat.id in K by lia. exact K.
  Qed.

  Lemma vec_load_skip_view : forall x f old, exists a,
    vec_load_skip size range old (map (fun e => WScalar (x e)) (zseq 0 (range size)) ++ f) = Some (a, f) /\
    forall r k, 0 <= r < size -> 0 <= k < range (r+1) - range r -> a r k = x (range r + k).
  Proof.
    intros x f old. unfold vec_load_skip.
    assert (K : forall n i a, Z.of_nat n = size - i -> 1 <= i ->
       exists b, fold_left (load_skip_step range) (zseq i (size - i))
         (Some (a, map (fun e => WScalar (x e)) (zseq (range i) (range size - range i)) ++ f)) = Some (b, f) /\
         (forall r k, i <= r < size -> 0 <= k < range (r+1) - range r -> b r k = x (range r + k)) /\
         (forall r k, r < i -> b r k = a r k)).
    { induction n as [|n IH]; intros i a Hn Hi.
      - replace (size - i) with 0 by lia. replace i with size by lia. rewrite Z.sub_diag. cbn [zseq Z.to_nat seq map fold_left app].
        exists a. split; [reflexivity|]. split; [intros; lia|auto].
      - rewrite (zseq_cons i (size - i)) by lia. cbn [fold_left].
        assert (E1 : range i <= range (i+1) /\ range (i+1) <= range size).
        { split; [apply Hmono; lia|]. clear - Hmono Hn Hi.
          assert (Q : forall m j, Z.of_nat m = size - j -> 0 <= j -> range j <= range size).
          { induction m as [|m IH']; intros j Hm Hj; [replace j with size by lia; lia|].
            specialize (IH' (j+1) ltac:(lia) ltac:(lia)). pose proof (Hmono j ltac:(lia)). lia. }
          apply (Q n); lia. }
        replace (range size - range i) with ((range (i+1) - range i) + (range size - range (i+1))) by lia.
        rewrite zseq_app by lia. rewrite map_app, <- app_assoc.
        replace (range i + (range (i+1) - range i)) with (range (i+1)) by lia.
        destruct (load_step_view x (map (fun e => WScalar (x e)) (zseq (range (i+1)) (range size - range (i+1))) ++ f) a i ltac:(lia)) as (b & Eb & B1 & B2).
        rewrite Eb. destruct (IH (i+1) b ltac:(lia) ltac:(lia)) as (b' & Eb' & B1' & B2').
        replace (size - i - 1) with (size - (i+1)) by lia. exists b'. split; [exact Eb'|]. split.
        + intros r k Hr Hk. destruct (Z.eq_dec r i) as [-> | Hne]; [rewrite B2' by lia; apply B1; auto|apply B1'; lia].
        + intros r k Hr. rewrite B2' by lia. apply B2. lia. }
    assert (E1 : 0 <= range 1 /\ range 1 <= range size).
    { split; [apply range_le; lia|]. 
      assert (Q : forall m j, Z.of_nat m = size - j -> 0 <= j -> range j <= range size).
      { induction m as [|m IH']; intros j Hm Hj; [replace j with size by lia; lia|].
        specialize (IH' (j+1) ltac:(lia) ltac:(lia)). pose proof (Hmono j ltac:(lia)). lia. }
      apply (Q (Z.to_nat (size-1))); lia. }
    replace (range size) with (range 1 + (range size - range 1)) by lia. rewrite zseq_app by lia. rewrite map_app, <- app_assoc.
    replace (0 + range 1) with (range 1) by lia.
    destruct (load_step_view x (map (fun e => WScalar (x e)) (zseq (range 1) (range size - range 1)) ++ f) old 0 ltac:(lia)) as (b & Eb & B1 & B2).
    rewrite Hr0 in Eb. change (0 + 1) with 1 in Eb. rewrite Z.sub_0_r in Eb. rewrite Eb.
    destruct (K (Z.to_nat (size-1)) 1 b ltac:(lia) ltac:(lia)) as (b' & Eb' & B1' & B2').
    exists b'. split; [exact Eb'|]. intros r k Hr Hk. destruct (Z.eq_dec r 0) as [-> | Hne]; [rewrite B2' by lia; apply B1; auto|apply B1'; lia].
  Qed.

  Lemma owner_of_spec : forall e, 0 <= e < range size ->
    let r := owner_of size range e in 0 <= r < size /\ range r <= e < range (r+1).
  Proof.
    intros e He. unfold owner_of. destruct (find _ _) as [r|] eqn:E.
    - apply find_some in E. destruct E as [E1 E2]. apply in_zseq in E1. lia.
    - exfalso. assert (Q : forall n, Z.of_nat n <= size -> range (Z.of_nat n) <= e).
      { induction n as [|n IH]; intros Hn; [change (Z.of_nat 0) with 0; lia|]. specialize (IH ltac:(lia)).
        pose proof (find_none _ _ E (Z.of_nat n) ltac:(apply in_zseq; lia)) as F. cbv beta in F.
        replace (Z.of_nat (S n)) with (Z.of_nat n + 1) by lia. lia. }
      specialize (Q (Z.to_nat size) ltac:(lia)). rewrite Z2Nat.id in Q by lia. lia.
  Qed.

  Lemma skip_roundtrip : forall x f old, exists a,
    vec_load_skip size range old (map (fun e => WScalar (x e)) (zseq 0 (range size)) ++ f) = Some (a, f) /\
    forall e, 0 <= e < range size -> assemble size range a e = x e.
  Proof.
    intros x f old. destruct (vec_load_skip_view x f old) as (a & E & Ha). exists a. split; [exact E|].
    intros e He. unfold assemble. destruct (owner_of_spec e He) as [H1 H2]. cbv zeta in *. rewrite Ha by lia. f_equal. lia.
  Qed.
End Skip.

(** * Scatters given by block pairs *)
Lemma scatter_blocks : forall (A : Type) (bs : Z) (pr : Z -> list (Z*Z)) order (dof : Z -> Z) (V Y : Z -> A) r a b c,
  1 <= bs -> (forall q, In q order -> dof q = bs) -> In r order -> In (a, b) (pr r) ->
  (forall q a', In q order -> In (a', b) (pr q) -> a' = a) -> 0 <= a -> 0 <= b -> 0 <= c < bs ->
  fold_left (fun Y q => insert_pairs (blocks (dof q) (pr q)) V Y) order Y (bs*b + c) = V (bs*a + c).
Proof.
  intros A bs pr order dof V Y r a b c Hbs Hdof Hr Hab Huniq Ha Hb Hc.
  rewrite (fold_left_ext' _ _ _ (fun Y q => writes (map (fun p => (snd p, V (fst p))) (vpairs (blocks (dof q) (pr q)))) Y))
    by (intros; apply insert_pairs_writes).
  rewrite fold_writes. apply writes_spec.
  - intros v' H. apply in_flat_map in H. destruct H as (q & Hq & H). apply in_map_iff in H. destruct H as ([a' b'] & E & H).
    cbn [fst snd] in E. apply filter_In in H. destruct H as [H _]. rewrite (Hdof q Hq) in H. apply in_blocks in H; auto.
    destruct H as ([x y] & c' & Hp & Hc' & -> & ->). cbn [fst snd] in *. inversion E as [[E1 E2]].
    destruct (block_inj bs y b c' c Hbs Hc' Hc E1) as [-> ->]. rewrite (Huniq q x Hq Hp). reflexivity.
  - apply in_flat_map. exists r. split; auto. apply in_map_iff. exists (bs*a + c, bs*b + c). split; [reflexivity|].
    assert (0 <= bs * a) by (apply Z.mul_nonneg_nonneg; lia). assert (0 <= bs * b) by (apply Z.mul_nonneg_nonneg; lia).
    apply filter_In. split; [|cbn [fst snd]; lia]. rewrite (Hdof r Hr). apply in_blocks; auto. exists (a, b), c. cbn [fst snd]. auto.
Qed.

Lemma box_index : forall s w i t, (forall d, 0 <= d < 3 -> 0 <= w d) -> 0 <= i ->
  nth_error (box s w) (Z.to_nat i) = Some t -> i = lin w (tsub s t).
Proof.
  intros s w i [[x y] z] Hw Hi E. pose proof (nth_error_In _ _ E) as Hin. apply In_box in Hin. unfold in_box in Hin.
  pose proof (nth_box s w (x - s 0) (y - s 1) (z - s 2) (0,0,0) ltac:(lia) ltac:(lia) ltac:(lia)) as Q.
  replace (s 0 + (x - s 0)) with x in Q by lia. replace (s 1 + (y - s 1)) with y in Q by lia. replace (s 2 + (z - s 2)) with z in Q by lia.
  pose proof (lin_range w (x - s 0) (y - s 1) (z - s 2) ltac:(lia) ltac:(lia) ltac:(lia)) as HR.
  pose proof (len_box3 s w Hw) as HL. cbn [tsub].
  set (j := lin w (x - s 0, y - s 1, z - s 2)) in *. apply Z2Nat.inj; [lia|lia|].
  pose proof (proj1 (NoDup_nth (box s w) (0,0,0)) (NoDup_box s w)) as ND. apply ND.
  - apply nth_error_Some. congruence.
  - lia.
  - erewrite nth_error_nth by eauto. rewrite Q. reflexivity.
Qed.

Section World.
  Variables (size bs : Z) (N : Z -> Z) (G : Z -> grid).
  Hypothesis W : grid_world size bs N G.
  Let owned (r : Z) := in_box (gr_lstart (G r)) (gr_lwidth (G r)).

  Lemma in_order : forall order, Permutation order (zseq 0 size) -> forall q, In q order <-> 0 <= q < size.
  Proof.
    intros order Ho q. split; intros H.
    - apply (Permutation_in _ Ho), in_zseq in H. lia.
    - apply (Permutation_in _ (Permutation_sym Ho)), in_zseq. lia.
  Qed.

  Lemma own_number : forall r t, 0 <= r < size -> owned r t ->
    ao size G (lin N t) = off G r + lin (gr_lwidth (G r)) (tsub (gr_lstart (G r)) t) /\
    0 <= lin (gr_lwidth (G r)) (tsub (gr_lstart (G r)) t) < nlocal (G r).
  Proof.
    intros r [[i j] k] Hr Ht. unfold owned, in_box in Ht. cbn [tsub].
    pose proof (lin_range (gr_lwidth (G r)) (i - gr_lstart (G r) 0) (j - gr_lstart (G r) 1) (k - gr_lstart (G r) 2) ltac:(lia) ltac:(lia) ltac:(lia)) as HR.
    split; [|exact HR]. destruct (ao_local _ _ _ _ W r _ 0 Hr HR) as [E _]. rewrite <- E. f_equal.
    unfold local_indices. pose proof (len_box3 (gr_lstart (G r)) (gr_lwidth (G r)) ltac:(intros d Hd; apply (w_dir _ _ _ _ W r d Hr Hd))) as HL.
    rewrite nth_indep with (d' := lin (gr_sizes (G r)) (0,0,0)) by (rewrite map_length; unfold nlocal in HR; lia).
    rewrite map_nth, nth_box by lia. rewrite (w_lin _ _ _ _ W) by auto. f_equal. f_equal; [f_equal|]; lia.
  Qed.

  Lemma grid_g2n_in : forall q a b, 0 <= q < size -> (In (a, b) (grid_g2n_pairs G q) <->
    exists t, owned q t /\ a = ao size G (lin N t) /\ b = lin N t).
  Proof.
    intros q a b Hq. unfold grid_g2n_pairs. pose proof (len_local _ _ _ _ W q Hq) as HL. split.
    - intros H. apply (In_nth _ _ (0,0)) in H. destruct H as (i & Hi & E).
      rewrite combine_length, map_length, length_zseq in Hi. rewrite combine_nth in E by (rewrite map_length, length_zseq; lia).
      apply pair_equal_spec in E. destruct E as [E1 E2].
      assert (Hin : In b (local_indices (G q))) by (rewrite <- E2; apply nth_In; lia).
      unfold local_indices in Hin. apply in_map_iff in Hin. destruct Hin as (t & Et & Ht). apply In_box in Ht.
      exists t. split; [exact Ht|]. rewrite (w_lin _ _ _ _ W) in Et by auto. split; [|auto].
      destruct (ao_local _ _ _ _ W q (Z.of_nat i) 0 Hq ltac:(lia)) as [Q _]. rewrite Nat2Z.id in Q. rewrite Et, <- E2, Q.
      rewrite <- E1. rewrite <- (Nat2Z.id i) at 1. apply (nth_map_zseq _ (fun pos => off G q + pos) 0). lia.
    - intros (t & Ht & -> & ->). destruct (own_number q t Hq Ht) as [E HR]. rewrite E.
      set (pos := lin (gr_lwidth (G q)) (tsub (gr_lstart (G q)) t)) in *.
      destruct (ao_local _ _ _ _ W q pos 0 Hq HR) as [Q _].
      assert (El : nth (Z.to_nat pos) (local_indices (G q)) 0 = lin N t).
      { apply (ao_inj _ _ _ _ W).
        - apply (app_in _ _ _ _ W). unfold app_order. apply in_flat_map. exists q. split; [apply in_zseq; lia|]. apply nth_In. lia.
        - apply (lin_in_range N). apply (own_in_grid _ _ _ _ W q); auto.
        - rewrite Q, E. reflexivity. }
      assert (Ec : nth (Z.to_nat pos) (combine (map (fun p => off G q + p) (zseq 0 (nlocal (G q)))) (local_indices (G q))) (0,0) = (off G q + pos, lin N t)).
      { rewrite combine_nth by (rewrite map_length, length_zseq; lia). f_equal; [|exact El].
        rewrite (nth_map_zseq _ (fun p => off G q + p)) by lia. reflexivity. }
      rewrite <- Ec. apply nth_In. rewrite combine_length, map_length, length_zseq. lia.
  Qed.

  Lemma grid_gn_value : forall order V X t c, Permutation order (zseq 0 size) -> in_box zero3 N t -> 0 <= c < bs ->
    grid_global_to_natural G order V X (bs * lin N t + c) = V (bs * ao size G (lin N t) + c).
  Proof.
    intros order V X t c Ho Ht Hc. unfold grid_global_to_natural. pose proof (in_order order Ho) as Io.
    destruct W as (W1 & W2 & W3 & W4 & W5). destruct (W5 t Ht) as (q & [Hq Hown] & _).
    pose proof (ao_range _ _ _ _ W _ (lin_in_range N t Ht)) as HA. pose proof (lin_in_range N t Ht) as HB.
    apply (scatter_blocks _ bs (grid_g2n_pairs G) order (fun q => gr_dof (G q)) V X q); try lia.
    - intros r Hr. apply Io in Hr. apply (w_dof _ _ _ _ W r Hr).
    - apply Io; auto.
    - apply grid_g2n_in; auto. exists t. auto.
    - intros r a' Hr Hin. apply Io in Hr. apply grid_g2n_in in Hin; auto. destruct Hin as (t' & Ht' & -> & E).
      apply (lin_inj N) in E; [subst; reflexivity|auto|apply (own_in_grid _ _ _ _ W r); auto].
  Qed.

  Lemma grid_ng_value : forall order X V t c, Permutation order (zseq 0 size) -> in_box zero3 N t -> 0 <= c < bs ->
    grid_natural_to_global G order X V (bs * ao size G (lin N t) + c) = X (bs * lin N t + c).
  Proof.
    intros order X V t c Ho Ht Hc. unfold grid_natural_to_global. pose proof (in_order order Ho) as Io.
    destruct W as (W1 & W2 & W3 & W4 & W5). destruct (W5 t Ht) as (q & [Hq Hown] & _).
    pose proof (ao_range _ _ _ _ W _ (lin_in_range N t Ht)) as HA. pose proof (lin_in_range N t Ht) as HB.
    assert (SW : forall q a b, In (a, b) (swap_pairs (grid_g2n_pairs G q)) <-> In (b, a) (grid_g2n_pairs G q)).
    { intros r a b. unfold swap_pairs. rewrite in_map_iff. split.
      - intros ([x y] & E & H). cbn [fst snd] in E. inversion E; subst. exact H.
      - intros H. exists (b, a). auto. }
    apply (scatter_blocks _ bs (fun q => swap_pairs (grid_g2n_pairs G q)) order (fun q => gr_dof (G q)) X V q); try lia.
    - intros r Hr. apply Io in Hr. apply (w_dof _ _ _ _ W r Hr).
    - apply Io; auto.
    - apply SW. apply grid_g2n_in; auto. exists t. auto.
    - intros r a' Hr Hin. apply Io in Hr. apply SW in Hin. apply grid_g2n_in in Hin; auto. destruct Hin as (t' & Ht' & E & ->).
      pose proof (own_in_grid _ _ _ _ W r t' Hr Ht') as Ht2.
      apply (ao_inj _ _ _ _ W) in E; try (apply (lin_in_range N); auto). congruence.
  Qed.

  Lemma ilocal_own : forall junk r t, 0 <= r < size ->
    subbox (gr_lstart (G r)) (gr_lwidth (G r)) (gr_gstart (G r)) (gr_gwidth (G r)) -> owned r t ->
    ilocal G junk r (lin (gr_lwidth (G r)) (tsub (gr_lstart (G r)) t)) = lin (gr_gwidth (G r)) (tsub (gr_gstart (G r)) t).
  Proof.
    intros junk r t Hr Hs Ht. destruct (own_number r t Hr Ht) as [_ HR].
    set (pos := lin (gr_lwidth (G r)) (tsub (gr_lstart (G r)) t)) in *.
    pose proof (enum_filter _ _ _ _ Hs) as HE. cbv zeta in HE. unfold ilocal, ilocal_written.
    set (b := box (gr_gstart (G r)) (gr_gwidth (G r))) in *.
    set (l := filter _ _) in *. destruct HE as [H1 H2].
    assert (HL : Z.of_nat (length l) = nlocal (G r)).
    { rewrite <- (map_length fst). rewrite H1. unfold nlocal. apply len_box3. intros d Hd. apply (w_dir _ _ _ _ W r d Hr Hd). }
    rewrite map_length, HL. replace (pos <? nlocal (G r)) with true by lia.
    destruct (nth_error l (Z.to_nat pos)) as [[t' i]|] eqn:E.
    2:{ apply nth_error_None in E. lia. }
    erewrite nth_error_nth; [|rewrite nth_error_map, E; reflexivity]. cbn [snd].
    destruct (H2 t' i (nth_error_In _ _ E)) as (T1 & T2 & T3).
    apply box_index in T3; [|intros d Hd; apply (w_dir _ _ _ _ W r d Hr Hd)|lia]. rewrite T3. f_equal. f_equal.
    assert (Eb : nth_error (box (gr_lstart (G r)) (gr_lwidth (G r))) (Z.to_nat pos) = Some t').
    { rewrite <- H1, nth_error_map, E. reflexivity. }
    destruct t as [[x y] z]. unfold owned, in_box in Ht.
    pose proof (nth_box (gr_lstart (G r)) (gr_lwidth (G r)) (x - gr_lstart (G r) 0) (y - gr_lstart (G r) 1) (z - gr_lstart (G r) 2) (0,0,0) ltac:(lia) ltac:(lia) ltac:(lia)) as Q.
    cbn [tsub] in pos. fold pos in Q. erewrite nth_error_nth in Q by eauto. rewrite Q. f_equal; [f_equal|]; lia.
  Qed.

  (** The natural vector written to the file holds the values of the owned copies. *)
  Lemma save_natural : forall junk order1 order2 L gv0 nv0 (F : triple -> Z -> R),
    Permutation order1 (zseq 0 size) -> Permutation order2 (zseq 0 size) ->
    (forall r, 0 <= r < size -> subbox (gr_lstart (G r)) (gr_lwidth (G r)) (gr_gstart (G r)) (gr_gwidth (G r))) ->
    (forall r t c, 0 <= r < size -> owned r t -> 0 <= c < bs -> L r (bs * lin (gr_gwidth (G r)) (tsub (gr_gstart (G r)) t) + c) = F t c) ->
    forall t c, in_box zero3 N t -> 0 <= c < bs ->
    grid_global_to_natural G order2 (local_to_global_insert G junk order1 L gv0) nv0 (bs * lin N t + c) = F t c.
  Proof.
    intros junk order1 order2 L gv0 nv0 F Ho1 Ho2 Hs HL t c Ht Hc. rewrite grid_gn_value by auto.
    pose proof W as (_ & _ & _ & _ & W5). destruct (W5 t Ht) as (q & [Hq Hown] & _).
    destruct (own_number q t Hq Hown) as [E HR]. rewrite E.
    rewrite (l2g_insert_value _ _ _ _ W) by auto. rewrite ilocal_own by auto. apply HL; auto.
  Qed.

  (** Every copy of a node, owned or ghost, receives the value of the natural vector. *)
  Lemma load_local : forall order X gv0 L0 r t c, Permutation order (zseq 0 size) -> 0 <= r < size ->
    subbox (gr_gstart (G r)) (gr_gwidth (G r)) zero3 N ->
    in_box (gr_gstart (G r)) (gr_gwidth (G r)) t -> 0 <= c < bs ->
    global_to_local size G (grid_natural_to_global G order X gv0) r L0 (bs * lin (gr_gwidth (G r)) (tsub (gr_gstart (G r)) t) + c)
    = X (bs * lin N t + c).
  Proof.
    intros order X gv0 L0 r [[i j] k] c Ho Hr Hs Ht Hc.
    assert (Hin : in_box zero3 N (i,j,k)).
    { pose proof (Hs 0 ltac:(lia)). pose proof (Hs 1 ltac:(lia)). pose proof (Hs 2 ltac:(lia)). unfold in_box, zero3 in *. lia. }
    assert (Hg : forall d, 0 <= d < 3 -> - N d <= gr_gstart (G r) d).
    { intros d Hd. pose proof (Hs d Hd). pose proof (w_N _ _ _ _ W d Hd). unfold zero3 in *. lia. }
    cbn [tsub]. unfold in_box in Ht.
    pose proof (lin_range (gr_gwidth (G r)) (i - gr_gstart (G r) 0) (j - gr_gstart (G r) 1) (k - gr_gstart (G r) 2) ltac:(lia) ltac:(lia) ltac:(lia)) as HR.
    rewrite (g2l_value _ _ _ _ W) by auto. rewrite (lgmap_coords _ _ _ _ W) by (auto; lia).
    replace (gr_gstart (G r) 0 + (i - gr_gstart (G r) 0)) with i by lia.
    replace (gr_gstart (G r) 1 + (j - gr_gstart (G r) 1)) with j by lia.
    replace (gr_gstart (G r) 2 + (k - gr_gstart (G r) 2)) with k by lia.
    rewrite modbox_id by auto. apply grid_ng_value; auto.
  Qed.
End World.
