(** Round trips through a file: arrays, axes, and whole discretisations. *)
From Coq Require Import ZArith List Bool Lia Reals Lra Permutation.
From Coq Require Import ZifyBool ZifyNat.
From Verif Require Import Prelude RealOrd Box AxisModel AxisSpec AxisProofs AxisInitModel AxisInitProofs AxisProofs2 PartModel SetupModel
  SetupProofs SetupProps GridModel GridSpec GridProofs GridProofs2 GridSetup IOModel IOSpec IOProofs IOProofs2.
Import ListNotations.
Open Scope Z_scope.

Lemma local_node_lin : forall g t, local_node g t = lin (fun d => r_gwidth (g d)) (tsub (fun d => r_gstart (g d)) t).
Proof. intros g [[i j] k]. unfold local_node, lin, tsub. ring. Qed.

Lemma world_ext : forall size bs N G G', (forall r, 0 <= r < size -> G' r = G r) -> grid_world size bs N G -> grid_world size bs N G'.
Proof.
  intros size bs N G G' E (W1 & W2 & W3 & W4 & W5). split; [auto|]. split; [auto|]. split; [auto|]. split.
  - intros r Hr. rewrite E by auto. auto.
  - intros t Ht. destruct (W5 t Ht) as (r & [Hr Hb] & Hu). exists r. split.
    + rewrite E by auto. auto.
    + intros q [Hq Hqb]. apply Hu. rewrite E in Hqb by auto. auto.
Qed.

Lemma lin_surj : forall N x, (forall d, 0 <= d < 3 -> 1 <= N d) -> 0 <= x < vol N -> exists t, in_box zero3 N t /\ lin N t = x.
Proof.
  intros N x HN Hx. pose proof (HN 0 ltac:(lia)). pose proof (HN 1 ltac:(lia)). pose proof (HN 2 ltac:(lia)).
  destruct (lin_unlin N x ltac:(lia) ltac:(lia) ltac:(lia) Hx) as [E B]. exists (unlin N x). auto.
Qed.

Section Arrays.
  Variables (size size' bs : Z) (N : Z -> Z) (geom geom' : Z -> Z -> range).
  Hypothesis W : grid_world size bs N (io_grid bs geom).
  Hypothesis W' : grid_world size' bs N (io_grid bs geom').
  Hypothesis Own : forall r, 0 <= r < size -> subbox (fun d => r_lstart (geom r d)) (fun d => r_lwidth (geom r d))
                                                   (fun d => r_gstart (geom r d)) (fun d => r_gwidth (geom r d)).
  Hypothesis Ghost : forall r, 0 <= r < size' -> subbox (fun d => r_gstart (geom' r d)) (fun d => r_gwidth (geom' r d)) zero3 N.

  Lemma array_roundtrip : forall skip order1 order2 order1' junk lv0' gv0 gv0' nv0 nv0' L F rest,
    Permutation order1 (zseq 0 size) -> Permutation order2 (zseq 0 size) -> Permutation order1' (zseq 0 size') ->
    stores owned_by size geom bs L F ->
    exists gvec lvec,
      load_array size' skip order1' lv0' gv0' nv0' bs geom' (save_array skip order1 order2 junk gv0 nv0 bs geom L ++ rest)
        = Some (gvec, lvec, rest) /\
      (forall t c, in_box zero3 N t -> 0 <= c < bs -> gvec (bs * ao size' (io_grid bs geom') (lin N t) + c) = F t c) /\
      stores held_by size' geom' bs lvec F.
  Proof.
    intros skip order1 order2 order1' junk lv0' gv0 gv0' nv0 nv0' L F rest Ho1 Ho2 Ho1' HF.
    set (G := io_grid bs geom) in *. set (G' := io_grid bs geom') in *.
    assert (Hbs : 1 <= bs) by apply W. assert (HN : forall d, 0 <= d < 3 -> 1 <= N d) by apply W.
    assert (Hs : 1 <= size) by apply W. assert (Hs' : 1 <= size') by apply W'.
    set (n1 := grid_global_to_natural G order2 (local_to_global_insert G junk order1 L gv0) nv0).
    assert (Nat : forall t c, in_box zero3 N t -> 0 <= c < bs -> n1 (bs * lin N t + c) = F t c).
    { intros t c Ht Hc. apply (save_natural size bs N G W); auto. intros r t' c' Hr Ht' Hc'.
      unfold stores in HF. rewrite <- (HF r t' c' Hr Ht' Hc'). rewrite local_node_lin. reflexivity. }
    assert (SZ : io_size bs geom = bs * vol N).
    { unfold io_size, vol. fold G. rewrite (proj1 (w_dir _ _ _ _ W 0 0 ltac:(lia) ltac:(lia))), (proj1 (w_dir _ _ _ _ W 0 1 ltac:(lia) ltac:(lia))), (proj1 (w_dir _ _ _ _ W 0 2 ltac:(lia) ltac:(lia))). reflexivity. }
    assert (SZ' : io_size bs geom' = bs * vol N).
    { unfold io_size, vol. fold G'. rewrite (proj1 (w_dir _ _ _ _ W' 0 0 ltac:(lia) ltac:(lia))), (proj1 (w_dir _ _ _ _ W' 0 1 ltac:(lia) ltac:(lia))), (proj1 (w_dir _ _ _ _ W' 0 2 ltac:(lia) ltac:(lia))). reflexivity. }
    unfold save_array, load_array. fold G G'. cbv zeta. fold n1. rewrite SZ, SZ'.
    assert (HV : 0 <= bs * vol N).
    { unfold vol. pose proof (HN 0 ltac:(lia)). pose proof (HN 1 ltac:(lia)). pose proof (HN 2 ltac:(lia)).
      repeat apply Z.mul_nonneg_nonneg; lia. }
    assert (K : exists y, (if skip then match vec_load_skip size' (fun r => bs * off G' r) (fun r k => nv0' (bs * off G' r + k)) (vec_view skip (bs * vol N) n1 ++ rest) with
                     | Some (a, f) => Some (assemble size' (fun r => bs * off G' r) a, f) | None => None end
                else vec_load (bs * vol N) nv0' (vec_view skip (bs * vol N) n1 ++ rest)) = Some (y, rest) /\ forall e, 0 <= e < bs * vol N -> y e = n1 e).
    { destruct skip.
      - unfold vec_view. cbn [app].
        destruct (skip_roundtrip size' (fun r => bs * off G' r) Hs' ltac:(cbv beta; rewrite off_0; lia)
          ltac:(intros r Hr; cbv beta; pose proof (off_S G' r ltac:(lia)); pose proof (nlocal_nonneg _ _ _ _ W' r Hr); nia) n1 rest (fun r k => nv0' (bs * off G' r + k)))
          as (a & Ea & Ha). cbv beta in Ea, Ha. rewrite (off_size _ _ _ _ W') in Ea, Ha. rewrite Ea. eexists. split; [reflexivity|exact Ha].
      - destruct (vec_view_load (bs * vol N) nv0' n1 rest) as (y & Ey & Hy). exists y. rewrite Ey. auto. }
    destruct K as (y & Ey & Hy). cbv zeta in Ey. rewrite Ey. eexists _, _. split; [reflexivity|].
    assert (Yv : forall t c, in_box zero3 N t -> 0 <= c < bs -> y (bs * lin N t + c) = F t c).
    { intros t c Ht Hc. rewrite Hy; [apply Nat; auto|]. pose proof (lin_in_range N t Ht). nia. }
    split.
    - intros t c Ht Hc. rewrite (grid_ng_value _ _ _ _ W') by auto. apply Yv; auto.
    - intros r t c Hr Ht Hc. rewrite local_node_lin.
      etransitivity; [apply (load_local _ _ _ _ W' order1' y gv0' (lv0' r) r t c Ho1' Hr); auto|].
      + exact (Ghost r Hr).
      + apply Yv; auto. specialize (Ghost r Hr). pose proof (Ghost 0 ltac:(lia)). pose proof (Ghost 1 ltac:(lia)). pose proof (Ghost 2 ltac:(lia)).
        destruct t as [[i j] k]. unfold held_by, in_box, zero3 in *. lia.
  Qed.
End Arrays.

(** * Axes *)
Definition reloaded (a b a' : axis Rord) : Prop :=
  axis_setup a' = (Ok, a') /\ axis_ready a' /\ same_axis a' a /\ ax_periodic a' = ax_periodic b /\
  (ax_periodic b = ax_periodic a -> ax_nnp a' = ax_nnp a).

Lemma load_axis_save : forall a axes i rest, axis_ready a ->
  exists a', load_axis (Some (axes, save_axis a ++ rest)) i = Some (upd axes i a', rest) /\ reloaded a (axes i) a'.
Proof.
  intros a axes i rest Ha. pose proof Ha as (l & _ & (V1 & V2 & _) & _).
  set (Ul := map (ax_U a) (zseq 0 (ax_m a + 1))).
  destruct (axis_reload a (axes i) (arr 0%R Ul) Ha) as (a' & E & A1 & A2 & A3 & A4 & A5 & A6 & A7 & A8 & A9).
  { intros k Hk. unfold arr, Ul. replace (k <? 0) with false by lia. rewrite (nth_map_zseq _ (ax_U a)) by lia. reflexivity. }
  exists a'. split.
  - unfold load_axis, save_axis. rewrite <- app_assoc. cbn [app rd_int].
    assert (R1 : rd_reals (Z.to_nat (ax_m a + 1)) (map (fun k => WReal (ax_U a k)) (zseq 0 (ax_m a + 1)) ++ rest) = Some (Ul, rest)).
    { rewrite <- (map_map (ax_U a) WReal). fold Ul.
      assert (LU : Z.to_nat (ax_m a + 1) = length Ul) by (unfold Ul; rewrite map_length, length_zseq; reflexivity). rewrite LU. apply rd_reals_app. }
    rewrite R1. replace (ax_m a + 1 - 1) with (ax_m a) by lia. rewrite E. reflexivity.
  - unfold reloaded, same_axis. auto 10.
Qed.

Lemma load_axes_save : forall (src : Z -> axis Rord) n s axes rest, 0 <= n ->
  (forall i, s <= i < s + n -> axis_ready (src i)) ->
  exists axes', fold_left load_axis (zseq s n) (Some (axes, flat_map (fun i => save_axis (src i)) (zseq s n) ++ rest)) = Some (axes', rest) /\
    (forall i, s <= i < s + n -> reloaded (src i) (axes i) (axes' i)) /\ (forall i, ~ s <= i < s + n -> axes' i = axes i).
Proof.
  intros src n s axes rest Hn. revert s axes. pattern n. apply natlike_ind; auto; clear n Hn.
  - intros s axes _. exists axes. rewrite zseq_nil by lia. cbn [flat_map fold_left app]. split; [reflexivity|]. split; [lia|auto].
  - intros n Hn IH s axes Hr. rewrite zseq_cons by lia. replace (Z.succ n - 1) with n by lia. cbn [flat_map fold_left].
    rewrite <- app_assoc. destruct (load_axis_save (src s) axes s (flat_map (fun i => save_axis (src i)) (zseq (s+1) n) ++ rest) ltac:(apply Hr; lia)) as (a' & E & Ra).
    rewrite E. destruct (IH (s+1) (upd axes s a') ltac:(intros; apply Hr; lia)) as (axes' & E' & R1 & R2). exists axes'. split; [exact E'|]. split.
    + intros i Hi. destruct (Z.eq_dec i s) as [->|Ne].
      * rewrite R2 by lia. unfold upd. rewrite Z.eqb_refl. exact Ra.
      * specialize (R1 i ltac:(lia)). unfold upd in R1. replace (i =? s) with false in R1 by lia. exact R1.
    + intros i Hi. rewrite R2 by lia. unfold upd. replace (i =? s) with false by lia. reflexivity.
Qed.

(** * Set-up of the reader *)
Lemma setup_reader : forall g2 g3 maxint size user dim (src : Z -> axis Rord) (g : io_iga),
  (forall a b c, 0 <= g2 a b c) -> (forall a b c d, 0 <= g3 a b c d) -> 1 <= size -> 1 <= dim ->
  (forall i, 0 <= i < dim -> ends_nonempty (O:=Rord) (ax_p (src i)) (ax_m (src i)) (ax_U (src i))) ->
  io_dim g = dim -> (forall i, 0 <= i < dim -> exists b, reloaded (src i) b (io_axes g i)) ->
  (forall r, 0 <= r < size -> fst (fst (partition g2 g3 maxint size r (map (fun i => ax_nel (src i)) (zseq 0 dim)) user)) = Ok) ->
  exists g' LY, io_setup_basic size g2 g3 maxint user g = Some g' /\
    io_dim g' = dim /\ (forall i, 0 <= i < dim -> io_axes g' i = io_axes g i) /\
    setup_ok g2 g3 maxint size dim (io_axes g') user LY /\ (forall r, 0 <= r < size -> io_geom g' r = ly_geom (LY r)) /\
    io_nsd g' = io_nsd g /\ io_rational g' = io_rational g /\ io_X g' = io_X g /\ io_W g' = io_W g /\ io_npd g' = io_npd g /\ io_A g' = io_A g.
Proof.
  intros g2 g3 maxint size user dim src g H2 H3 Hs Hdim He Ed HR HP.
  unfold io_setup_basic. rewrite Ed. replace (dim <? 1) with false by lia.
  assert (B1 : forallb (fun i => is_ok (fst (axis_setup (io_axes g i)))) (zseq 0 dim) = true).
  { apply forallb_forall. intros i Hi. apply in_zseq in Hi. destruct (HR i ltac:(lia)) as (b & E & _). rewrite E. reflexivity. }
  rewrite B1. cbn [negb].
  set (ax := fun i => snd (axis_setup (io_axes g i))).
  assert (EA : forall i, 0 <= i < dim -> ax i = io_axes g i).
  { intros i Hi. unfold ax. destruct (HR i Hi) as (b & E & _). rewrite E. reflexivity. }
  assert (EN : map (fun i => ax_nel (ax i)) (zseq 0 dim) = map (fun i => ax_nel (src i)) (zseq 0 dim)).
  { apply map_ext_in. intros i Hi. apply in_zseq in Hi. rewrite EA by lia. destruct (HR i ltac:(lia)) as (b & _ & _ & (_ & _ & _ & _ & E) & _). exact E. }
  assert (ST : forall r, 0 <= r < size -> exists ly, stage1 g2 g3 maxint size r dim ax user = (Ok, Some ly)).
  { intros r Hr. unfold stage1. rewrite EN. specialize (HP r Hr).
    destruct (partition g2 g3 maxint size r (map (fun i => ax_nel (src i)) (zseq 0 dim)) user) as [[st n] c]. cbn [fst] in HP. subst st. eauto. }
  set (LY := fun r => match io_layout size g2 g3 maxint user dim ax r with Some ly => ly
                      | None => layout_of dim ax [] [] end).
  assert (SL : forall r, 0 <= r < size -> io_layout size g2 g3 maxint user dim ax r = Some (LY r) /\ stage1 g2 g3 maxint size r dim ax user = (Ok, Some (LY r))).
  { intros r Hr. unfold LY, io_layout. destruct (ST r Hr) as (ly & E). rewrite E. auto. }
  assert (B2 : forallb (fun r => match io_layout size g2 g3 maxint user dim ax r with Some _ => true | None => false end) (zseq 0 size) = true).
  { apply forallb_forall. intros r Hr. apply in_zseq in Hr. destruct (SL r ltac:(lia)) as [E _]. rewrite E. reflexivity. }
  rewrite B2. cbn [negb]. eexists _, LY. split; [reflexivity|].
  cbn [io_dim io_axes io_geom io_nsd io_rational io_X io_W io_npd io_A].
  split; [reflexivity|]. split; [exact EA|]. split.
  - split; [exact H2|]. split; [exact H3|]. split; [exact Hs|]. split.
    + intros i Hi. rewrite EA by auto. destruct (HR i Hi) as (b & _ & R & (S1 & S2 & S3 & _) & _). split; [exact R|].
      pose proof R as (l & _ & (V1 & V2 & _) & _). destruct (He i Hi) as [E1 E2]. rewrite S1, S2 in *. unfold ends_nonempty.
      rewrite !S3 by lia. auto.
    + intros r Hr. apply (SL r Hr).
  - split; [|auto 10]. intros r Hr. destruct (SL r Hr) as [E _]. rewrite E. reflexivity.
Qed.

(** * Geometry and properties *)
Definition packed (nsd : Z) (Xf : triple -> Z -> R) (Wf : triple -> R) (t : triple) (c : Z) : R :=
  if c <? nsd then (Xf t c * (if nonzerob (Wf t) then Wf t else 1))%R else Wf t.

Lemma local_node_range : forall g t, held_by g t -> 0 <= local_node g t < vol (fun d => r_gwidth (g d)).
Proof.
  intros g [[i j] k] H. unfold held_by, in_box in H. rewrite local_node_lin. cbn [tsub].
  apply (lin_range (fun d => r_gwidth (g d))); lia.
Qed.

Lemma pack_stores : forall size geom nsd X W Xf Wf (lv0 : Z -> Z -> R), 1 <= nsd ->
  (forall r t, 0 <= r < size -> owned_by (geom r) t -> held_by (geom r) t) ->
  stores owned_by size geom nsd X Xf ->
  match W with Some W => stores owned_by size geom 1 W (fun t _ => Wf t) | None => forall t, Wf t = 1%R end ->
  stores owned_by size geom (nsd+1)
    (fun r e => nth (Z.to_nat e) (pack nsd (vol (fun d => r_gwidth (geom r d))) (X r) (option_map (fun W => W r) W)) (lv0 r e))
    (packed nsd Xf Wf).
Proof.
  intros size geom nsd X W Xf Wf lv0 Hn Own HX HW r t c Hr Ht Hc. cbv beta.
  pose proof (local_node_range _ _ (Own r t Hr Ht)) as HR. set (a := local_node (geom r) t) in *.
  rewrite nth_pack by lia. cbv zeta. unfold packed.
  assert (EX : forall i, 0 <= i < nsd -> X r (i + a*nsd) = Xf t i).
  { intros i Hi. rewrite <- (HX r t i Hr Ht Hi). fold a. f_equal. ring. }
  destruct W as [W|]; cbn [option_map].
  - assert (EW : W r a = Wf t). { rewrite <- (HW r t 0 Hr Ht ltac:(lia)). fold a. f_equal. lia. }
    rewrite EW. destruct (Z.ltb_spec c nsd); [rewrite EX by lia; reflexivity|reflexivity].
  - rewrite HW. destruct (Z.ltb_spec c nsd); [|reflexivity]. rewrite EX by lia. f_equal.
    destruct (nonzerob 1); reflexivity.
Qed.

Lemma unpack_stores : forall size geom nsd lvec X0 W0 Xf Wf, 1 <= nsd -> stores held_by size geom (nsd+1) lvec (packed nsd Xf Wf) ->
  let XW r := unpack nsd (vol (fun d => r_gwidth (geom r d))) (lvec r) (X0 r) (W0 r) in
  stores held_by size geom nsd (fun r => fst (XW r)) Xf /\ stores held_by size geom 1 (fun r => snd (XW r)) (fun t _ => Wf t).
Proof.
  intros size geom nsd lvec X0 W0 Xf Wf Hn HL XW. 
  assert (K : forall r t, 0 <= r < size -> held_by (geom r) t ->
    (forall i, 0 <= i < nsd -> fst (XW r) (i + local_node (geom r) t * nsd) = Xf t i) /\ snd (XW r) (local_node (geom r) t) = Wf t).
  { intros r t Hr Ht. pose proof (local_node_range _ _ Ht) as HR. set (a := local_node (geom r) t) in *.
    destruct (unpack_spec nsd (vol (fun d => r_gwidth (geom r d))) (lvec r) (X0 r) (W0 r) ltac:(lia)) as [U1 U2]. fold (XW r) in U1, U2.
    assert (EW : lvec r ((nsd+1)*a + nsd) = Wf t).
    { etransitivity; [exact (HL r t nsd Hr Ht ltac:(lia))|]. unfold packed. rewrite Z.ltb_irrefl. reflexivity. }
    split; [|rewrite U2 by lia; exact EW]. intros i Hi. rewrite U1 by lia. unfold unpacked. cbv zeta. rewrite EW.
    assert (EX : lvec r ((nsd+1)*a + i) = packed nsd Xf Wf t i) by (exact (HL r t i Hr Ht ltac:(lia))). rewrite EX. unfold packed.
    replace (i <? nsd) with true by lia. destruct (nonzerob (Wf t)) eqn:Ew.
    - apply nonzerob_spec in Ew. field. exact Ew.
    - ring. }
  split; intros r t c Hr Ht Hc; destruct (K r t Hr Ht) as [K1 K2].
  - rewrite <- (K1 c Hc). f_equal. ring.
  - rewrite <- K2. f_equal. lia.
Qed.

Lemma packed_weight : forall nsd Xf Wf t, packed nsd Xf Wf t nsd = Wf t.
Proof. intros. unfold packed. rewrite Z.ltb_irrefl. reflexivity. Qed.

(** Two components of a vector numbered by the ranks differ by more than tol iff those of two nodes do. *)
Lemma rational_nodes : forall size bs N G gvec c Wf tol, grid_world size bs N G -> 0 <= c < bs ->
  (forall t, in_box zero3 N t -> gvec (bs * ao size G (lin N t) + c) = Wf t) ->
  (tol < stride_max bs (vol N) c gvec - stride_min bs (vol N) c gvec)%R <->
  exists t t', in_box zero3 N t /\ in_box zero3 N t' /\ (tol < Wf t - Wf t')%R.
Proof.
  intros size bs N G gvec c Wf tol W Hc HW. pose proof (fun d Hd => w_N _ _ _ _ W d Hd) as HN.
  assert (HV : 1 <= vol N).
  { unfold vol. pose proof (HN 0 ltac:(lia)). pose proof (HN 1 ltac:(lia)). pose proof (HN 2 ltac:(lia)). nia. }
  rewrite stride_range by auto. 
  assert (Sj : forall b, 0 <= b < vol N -> exists t, in_box zero3 N t /\ b = ao size G (lin N t)).
  { intros b Hb. destruct (ao_bij _ _ _ _ W b Hb) as (x & [Hx Ex] & _). destruct (lin_surj N x HN Hx) as (t & Ht & Et). exists t. subst x. auto. }
  split.
  - intros (b & b' & Hb & Hb' & H). destruct (Sj b Hb) as (t & Ht & ->), (Sj b' Hb') as (t' & Ht' & ->).
    rewrite !HW in H by auto. eauto.
  - intros (t & t' & Ht & Ht' & H). exists (ao size G (lin N t)), (ao size G (lin N t')).
    split; [apply (ao_range _ _ _ _ W), lin_in_range; auto|]. split; [apply (ao_range _ _ _ _ W), lin_in_range; auto|]. rewrite !HW by auto. exact H.
Qed.

(** * Matrices *)
Lemma flat_ranges : forall (f : Z -> Z) n, 0 <= n -> (forall r, 0 <= r < n -> f r <= f (r+1)) ->
  flat_map (fun r => zseq (f r) (f (r+1) - f r)) (zseq 0 n) = zseq (f 0) (f n - f 0) /\ f 0 <= f n.
Proof.
  intros f n Hn. pattern n. apply natlike_ind; auto; clear n Hn.
  - intros _. rewrite zseq_nil by lia. rewrite Z.sub_diag. split; [rewrite zseq_nil by lia; reflexivity|lia].
  - intros n Hn IH Hm. destruct IH as [IH IL]; [intros; apply Hm; lia|]. specialize (Hm n ltac:(lia)). unfold Z.succ. split; [|lia].
    rewrite zseq_app by lia. rewrite flat_map_app, IH. rewrite (zseq_cons (0+n) 1) by lia. rewrite (zseq_nil (0+n+1)) by lia.
    cbn [flat_map]. rewrite app_nil_r. replace (0 + n) with n by lia.
    replace (f (n+1) - f 0) with ((f n - f 0) + (f (n+1) - f n)) by lia. rewrite (zseq_app (f 0)) by lia. f_equal. f_equal. lia.
Qed.

Section Mats.
  Variables (size bs : Z) (N : Z -> Z) (G : Z -> grid).
  Hypothesis W : grid_world size bs N G.

  Lemma mat_is_blocks : forall map_ r, 0 <= r < size -> mat_is G bs map_ r = is_block bs (map map_ (zseq (off G r) (off G (r+1) - off G r))).
  Proof.
    intros map_ r Hr. assert (Hbs : 1 <= bs) by apply W. unfold mat_is.
    rewrite (Z.mul_comm bs (off G r)), Z.div_mul by lia.
    replace (bs * off G (r+1) - off G r * bs) with ((off G (r+1) - off G r) * bs) by ring. rewrite Z.div_mul by lia.
    destruct (Z.ltb_spec 1 bs) as [H|H]; [reflexivity|]. assert (bs = 1) as -> by lia. unfold is_block.
    generalize (map map_ (zseq (off G r) (off G (r+1) - off G r))) as l. induction l as [|x l IH]; [reflexivity|].
    cbn [flat_map]. rewrite <- IH. change (zseq 0 1) with [0]. cbn [map app]. f_equal. lia.
  Qed.

  Lemma nth_all_is : forall map_ b c d, 0 <= b < vol N -> 0 <= c < bs -> nth (Z.to_nat (bs*b + c)) (all_is size G bs map_) d = bs * map_ b + c.
  Proof.
    intros map_ b c d Hb Hc. assert (Hs : 1 <= size) by apply W.
    assert (E : all_is size G bs map_ = is_block bs (map map_ (zseq 0 (vol N)))).
    { unfold all_is. transitivity (flat_map (fun r => is_block bs (map map_ (zseq (off G r) (off G (r+1) - off G r)))) (zseq 0 size)).
      { rewrite !flat_map_concat_map. f_equal. apply map_ext_in. intros r Hr. apply in_zseq in Hr. apply mat_is_blocks. lia. }
      destruct (flat_ranges (off G) size ltac:(lia)) as [F _].
      { intros r Hr. rewrite off_S by lia. pose proof (nlocal_nonneg _ _ _ _ W r Hr). lia. }
      rewrite off_0, (off_size _ _ _ _ W), Z.sub_0_r in F. rewrite <- F. clear F. unfold is_block.
      induction (zseq 0 size) as [|r l IH]; [reflexivity|]. cbn [flat_map]. rewrite IH, map_app, flat_map_app. reflexivity. }
    rewrite E. unfold is_block. replace (Z.to_nat (bs*b + c)) with (Z.to_nat b * Z.to_nat bs + Z.to_nat c)%nat by nia.
    rewrite nth_flat_map_const with (da := 0).
    - rewrite (nth_map_zseq _ map_) by lia. rewrite (nth_map_zseq _ (fun c => bs * map_ (0 + b) + c)) by lia. replace (0 + b) with b by lia. lia.
    - intros x _. rewrite map_length, length_zseq. reflexivity.
    - lia.
    - rewrite map_length, length_zseq. lia.
  Qed.

  Lemma ao_inv_ao : forall x, 0 <= x < vol N -> ao_inv size G (ao size G x) = x.
  Proof.
    intros x Hx. pose proof (ao_range _ _ _ _ W x Hx) as HR. unfold ao_inv. replace (ao size G x <? 0) with false by lia.
    unfold ao. replace (x <? 0) with false by lia. apply index_of_in. apply (app_in _ _ _ _ W). exact Hx.
  Qed.
End Mats.
