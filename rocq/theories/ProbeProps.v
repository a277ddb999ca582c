(** C50, C79, C80: point evaluation with a probe. *)
From Coq Require Import ZArith List Bool Lia Reals Lra Psatz.
From Coq Require Import ZifyBool ZifyNat.
From Coquelicot Require Import Coquelicot.
From Verif Require Import Prelude RealOrd AxisModel AxisSpec AxisProofs AxisInitModel PartModel PartSpec PartProofs SetupModel SetupProofs SetupProps
  Box GridModel GridSpec GridProofs GridProofs2 GridSetup GridProps ElemModel ElemSpec ElemProofs AsmProofs ElemProps
  BasModel BasSpec BasProps MapModel MapSpec MapProofs MapProofs2 MapProps AxisProps
  ProbeModel ProbeSpec ProbeProofs ProbeProofs2 ProbeProofs3 ProbeProofs4 Box.
Import ListNotations.
Open Scope Z_scope.

(** The probe belongs to the discretisation with these axes and layouts. *)
Definition probe_of (size dim : Z) (axes : Z -> axis Rord) (LY : Z -> layout) (E : penv) : Prop :=
  pe_dim E = dim /\ pe_axes E = axes /\ forall r, 0 <= r < size -> pe_geom E r = ly_geom (LY r).

Definition ghost_lo (LY : Z -> layout) (r d : Z) : Z := r_gstart (ly_geom (LY r) d).
Definition ghost_width (LY : Z -> layout) (r d : Z) : Z := r_gwidth (ly_geom (LY r) d).

(** C50: whatever the partition, every rank finds the same knot spans, those of the point; a rank takes the point iff
    it stores every function active there; and some rank does.  In collective mode the call succeeds, and afterwards
    all ranks hold the same coefficients, weights and control points. *)
Theorem C50_some_process_holds_the_point :
  forall g2 g3 maxint size dim (axes : Z -> axis Rord) user LY E u St,
  setup_ok g2 g3 maxint size dim axes user LY -> probe_of size dim axes LY E -> in_domain dim axes u ->
  exists k, spans_of dim axes u k /\
  (forall r d, 0 <= r < size -> 0 <= d < dim -> pb_ID (locate E r u (St r)) d = k d) /\
  (forall r, 0 <= r < size -> (pb_off (locate E r u (St r)) = false <->
     forall a, 1 <= a <= piece_nen dim axes -> in_box (ghost_lo LY r) (ghost_width LY r) (active_node dim axes k a))) /\
  (exists r, 0 <= r < size /\ pb_off (locate E r u (St r)) = false) /\
  exists St', set_point_all E size u St = Some St' /\
  forall r r', 0 <= r < size -> 0 <= r' < size ->
    (forall d, 0 <= d < dim -> pb_point (St' r) d = u d) /\
    (forall j, 0 <= j < piece_nen dim axes * pe_dof E -> pb_vec (St r) <> None -> pb_vec (St r') <> None -> pb_A (St' r) j = pb_A (St' r') j) /\
    (forall j, 0 <= j < piece_nen dim axes -> pe_W E <> None -> pb_W (St' r) j = pb_W (St' r') j) /\
    (forall j, 0 <= j < piece_nen dim axes * pe_nsd E -> pe_X E <> None -> pb_X (St' r) j = pb_X (St' r') j).
Proof.
  intros g2 g3 maxint size dim axes user LY E u St HS (Edim & Eaxes & Egeom) Hu.
  destruct (located g2 g3 maxint size dim axes user LY HS E Edim Eaxes Egeom u Hu) as (k & K1 & K2 & K3).
  pose proof (dim_bounds g2 g3 maxint size dim axes user LY HS) as HD.
  assert (EX : forall r i, pb_ID (locate E r u (St r)) i = pr_ID E r u i).
  { intros r i. unfold locate. cbn [pb_set_loc pb_ID]. apply (pr_ID_ext dim E Edim). intros d Hd. rewrite Edim. replace (d <? dim) with true by lia. reflexivity. }
  assert (NE : piece_nen dim axes = pr_nen E) by (unfold piece_nen, pr_nen; rewrite !(pr_p_eq dim axes E Edim Eaxes); reflexivity).
  assert (OF : forall r, 0 <= r < size -> pb_off (locate E r u (St r)) = pr_off E r k).
  { intros r Hr. change (pb_off (locate E r u (St r))) with (pr_off E r (pb_ID (locate E r u (St r)))). unfold pr_off.
    rewrite Edim. destruct (existsb _ _) eqn:Q1 at 1; symmetry.
    - apply existsb_exists in Q1. destruct Q1 as (d & Hd & Q1). apply existsb_exists. exists d. split; [exact Hd|]. apply in_zseq in Hd. rewrite EX, K3 in Q1 by lia. exact Q1.
    - apply Bool.not_true_is_false. intros Q2. apply Bool.not_true_iff_false in Q1. apply Q1. apply existsb_exists in Q2. destruct Q2 as (d & Hd & Q2).
      apply existsb_exists. exists d. split; [exact Hd|]. apply in_zseq in Hd. rewrite EX, K3 by lia. exact Q2. }
  exists k. split; [exact K1|]. split; [intros; rewrite EX; apply K3; lia|]. split; [|split].
  - intros r Hr. rewrite (OF r Hr).
    rewrite (on_process g2 g3 maxint size dim axes user LY HS E Edim Eaxes Egeom r k Hr ltac:(intros; apply K2; lia)). split.
    + intros H a Ha. rewrite NE in Ha. destruct (active_box g2 g3 maxint size dim axes user LY HS E Edim Eaxes Egeom k a K2 Ha) as (t & Ht & _ & ->). apply H. exact Ht.
    + intros H t Ht. set (n := fun i => pr_p E i + 1).
      assert (Hp : forall d, 0 <= d < 3 -> 0 < n d).
      { intros d Hd. unfold n. rewrite (pr_p_eq dim axes E Edim Eaxes). destruct (d <? dim) eqn:L; [|lia]. destruct (setup_wf _ _ _ _ _ _ _ _ HS d ltac:(lia)) as (l & (_ & (Hp & _) & _) & _). lia. }
      assert (B : in_box zero3 n t) by (apply In_box; exact Ht).
      pose proof (lin_in_range n t B) as LR. assert (LV : vol n = pr_nen E) by reflexivity.
      destruct (active_box g2 g3 maxint size dim axes user LY HS E Edim Eaxes Egeom k (lin n t + 1) K2 ltac:(lia)) as (t' & Ht' & El & Ea).
      assert (t = t') by (apply (lin_inj n); [exact B|apply In_box; exact Ht'|unfold n at 2; lia]). subst t'. rewrite <- Ea. apply H. lia.
  - destruct (some_owner g2 g3 maxint size dim axes user LY HS E Edim Eaxes Egeom u k K1 K2) as (r & Hr & Ho). exists r. rewrite OF by exact Hr. auto.
  - assert (R : 0 <= root_of size (fun r => locate E r u (St r))).
    { assert (H1 : 1 <= size) by (destruct HS as (_ & _ & Q & _); lia).
      destruct (root_of_spec size (fun r => locate E r u (St r)) ltac:(lia)) as [[R1 R2]|(R1 & R2 & _)]; [|lia].
      destruct (some_owner g2 g3 maxint size dim axes user LY HS E Edim Eaxes Egeom u k K1 K2) as (r & Hr & Ho). specialize (R2 r Hr). cbv beta in R2. rewrite OF in R2 by exact Hr. congruence. }
    unfold set_point_all. set (root := root_of _ _) in *. replace (root <? 0) with false by lia. cbn [andb]. eexists. split; [reflexivity|].
    assert (BD : forall q, pb_point (build E q) = pb_point q /\ pb_A (build E q) = pb_A q /\ pb_W (build E q) = pb_W q /\ pb_X (build E q) = pb_X q).
    { intros q. unfold build. destruct (pe_X E); [destruct (pe_dim E =? pe_nsd E)|]; repeat split. }
    intros r r' Hr Hr'. cbv beta zeta.
    match goal with |- context [build E ?q] => destruct (BD q) as (B1 & B2 & B3 & B4) end. rewrite B1, B2, B3, B4.
    match goal with |- context [build E ?q] => destruct (BD q) as (B1' & B2' & B3' & B4') end. rewrite B2', B3', B4'. clear B1 B2 B3 B4 B1' B2' B3' B4' BD.
    cbn [pb_set_data pb_point pb_A pb_W pb_X]. rewrite <- NE.
    assert (VE : forall r, pb_vec (if pb_off (locate E r u (St r)) then locate E r u (St r) else take E r (locate E r u (St r))) = pb_vec (St r)) by (intros x; destruct (pb_off (locate E x u (St x))); reflexivity).
    rewrite !VE.
    split; [|split; [|split]].
    + intros d Hd. destruct (pb_off (locate E r u (St r))); cbn; rewrite Edim; replace (d <? dim) with true by lia; reflexivity.
    + intros j Hj V1 V2. destruct (pb_vec (St r)); [|congruence]. destruct (pb_vec (St r')); [|congruence]. rewrite !bcast_in by exact Hj. reflexivity.
    + intros j Hj V. destruct (pe_W E); [|congruence]. rewrite !bcast_in by exact Hj. reflexivity.
    + intros j Hj V. destruct (pe_X E); [|congruence]. rewrite !bcast_in by exact Hj. reflexivity.
Qed.
Print Assumptions C50_some_process_holds_the_point.

(** The local array of a vector is a copy of its nodal values; nodes beyond the end of a periodic axis are images. *)
Theorem C79_vector_is_copied :
  forall (O : KnotOrd) g2 g3 maxint size dim (axes : Z -> axis O) user LY dof (V : Z -> R) (X : nodal) L0 r,
  setup_ok g2 g3 maxint size dim axes user LY -> 1 <= dof -> 0 <= r < size ->
  let N := fun d => if d <? dim then ax_nnp (axes d) else 1 in
  let G := fun r => grid_of dof (ly_node (LY r)) in
  (forall t c, in_box zero3 N t -> 0 <= c < dof -> V (dof * ao size G (lin N t) + c) = X t c) ->
  local_copy (ghost_lo LY r) (ghost_width LY r) dof (global_to_local size G V r L0) (fun t c => X (modbox N t) c).
Proof.
  intros O g2 g3 maxint size dim axes user LY dof V X L0 r HS Hdof Hr N G HV t c Ht Hc.
  destruct (C15_setup_gives_distributed_grids O g2 g3 maxint size dim axes user LY dof HS Hdof) as (W & _ & Hg & _). fold N G in W, Hg.
  assert (GG : forall d, 0 <= d < 3 -> ghost_lo LY r d = gr_gstart (G r) d /\ ghost_width LY r d = gr_gwidth (G r) d).
  { intros d Hd. destruct (setup_node_facts _ _ _ _ _ _ _ _ HS r d Hr Hd) as (_ & _ & _ & _ & _ & _ & _ & G1 & G2 & _). auto. }
  destruct (GG 0 ltac:(lia)) as [A0 B0]. destruct (GG 1 ltac:(lia)) as [A1 B1]. destruct (GG 2 ltac:(lia)) as [A2 B2].
  assert (N1 : forall d, 0 <= d < 3 -> 1 <= N d) by (intros d Hd; apply (w_N _ _ _ _ W); exact Hd).
  destruct t as [[i j] k]. unfold in_box, tsub in *. unfold lin at 1. rewrite A0, A1, A2, B0, B1 in *. rewrite B2 in Ht.
  rewrite (Z.mul_comm _ dof).
  assert (Hin : 0 <= i - gr_gstart (G r) 0 < gr_gwidth (G r) 0 /\ 0 <= j - gr_gstart (G r) 1 < gr_gwidth (G r) 1 /\ 0 <= k - gr_gstart (G r) 2 < gr_gwidth (G r) 2) by lia.
  destruct Hin as (I0 & I1 & I2).
  change (i - gr_gstart (G r) 0 + (j - gr_gstart (G r) 1) * gr_gwidth (G r) 0 + (k - gr_gstart (G r) 2) * (gr_gwidth (G r) 0 * gr_gwidth (G r) 1))
    with (lin (gr_gwidth (G r)) (i - gr_gstart (G r) 0, j - gr_gstart (G r) 1, k - gr_gstart (G r) 2)).
  assert (Hlow : forall d, 0 <= d < 3 -> - N d <= gr_gstart (G r) d) by (intros d Hd; apply Z.le_trans with 0; [pose proof (N1 d Hd) as Q; clear - Q; clearbody N; lia|exact (Hg r d Hr Hd)]).
  rewrite (g2l_value _ _ _ _ W) by (auto; unfold nghost; apply lin_range; assumption).
  rewrite (lgmap_coords _ _ _ _ W) by auto.
  replace (gr_gstart (G r) 0 + (i - gr_gstart (G r) 0)) with i by lia. replace (gr_gstart (G r) 1 + (j - gr_gstart (G r) 1)) with j by lia.
  replace (gr_gstart (G r) 2 + (k - gr_gstart (G r) 2)) with k by lia. apply HV; [apply (modbox_in _ _ _ _ W)|exact Hc].
Qed.
Print Assumptions C79_vector_is_copied.

(** The tables of the probe as functions of the point. *)
Section Tables.
  Variables (g2 : Z -> Z -> Z -> Z) (g3 : Z -> Z -> Z -> Z -> Z) (maxint size dim : Z) (axes : Z -> axis Rord) (user : list Z)
            (LY : Z -> layout).
  Hypothesis HS : setup_ok g2 g3 maxint size dim axes user LY.
  Variable E : penv.
  Hypothesis Edim : pe_dim E = dim.
  Hypothesis Eaxes : pe_axes E = axes.
  Hypothesis HB : bspline_tables E.
  Variable u : Z -> R.
  Variables (A : triple -> Z -> R) (w : option (triple -> R)) (X : option (triple -> Z -> R)) (q : probe) (order : Z).
  Hypothesis HW : pe_W E = None <-> w = None.
  Hypothesis Hq : ready dim axes E u A w X q.
  Hypothesis Ho : pb_order q = order.
  Hypothesis Hord : 0 <= order <= 4.

  Let k := pb_ID q.
  Let na d := pr_p E (d-1) + 1.
  Let nen := na 1 * na 2 * na 3.
  Let Bf d o i v := pe_basis E (d-1) (k (d-1)) (if (1 <=? d) && (d <=? dim) then v else pb_point q (d-1)) (pr_p E (d-1)) order (ax_U (axes (d-1))) o (i-1).
  Let Wt := match pe_W E with Some _ => Some (fun a => pb_W q (a-1)) | None => None end.
  Let M0 (y : pt) := basis_funs dim order (na 1) (na 2) (fun d o i => Bf d o i (y d)) (pb_M q).
  Let M (y : pt) := match Wt with Some W => rationalize order nen W (M0 y) | None => M0 y end.

  Lemma tb_dim : 1 <= dim <= 3.
  Proof using HS. exact (dim_bounds g2 g3 maxint size dim axes user LY HS). Qed.
  Lemma tb_p d : 0 <= d < dim -> pr_p E d = ax_p (axes d) /\ 0 <= ax_p (axes d) /\ nondecreasing (O:=Rord) (ax_m (axes d)) (ax_U (axes d)).
  Proof using HS Edim Eaxes.
    intros Hd. rewrite (pr_p_eq dim axes E Edim Eaxes). replace (d <? dim) with true by (clear - Hd; lia).
    destruct (setup_wf _ _ _ _ _ _ _ _ HS d Hd) as (l & (_ & (Hp & _ & Hn & _) & _) & _). split; [reflexivity|]. split; [clear - Hp; lia|exact Hn].
  Qed.
  Lemma tb_dims : dims dim (na 1) (na 2) (na 3).
  Proof using HS Edim Eaxes.
    pose proof tb_dim as D.
    assert (P : forall d, 0 <= d < 3 -> 0 <= pr_p E d /\ (dim <= d -> pr_p E d = 0)).
    { intros d Hd. rewrite (pr_p_eq dim axes E Edim Eaxes). destruct (d <? dim) eqn:L.
      - destruct (tb_p d ltac:(clear - Hd L; lia)) as (_ & P & _). clear - P L. lia.
      - clear - L. lia. }
    unfold dims, na. change (1-1) with 0. change (2-1) with 1. change (3-1) with 2.
    destruct (P 0 ltac:(clear; lia)). destruct (P 1 ltac:(clear; lia)). destruct (P 2 ltac:(clear; lia)).
    clear - D H H0 H1 H2 H3 H4. lia.
  Qed.
  Lemma tb_rows d : 1 <= d <= dim ->
    (forall i v, 1 <= i <= na d -> Bf d 0 i v = bspline_piece (ax_U (axes (d-1))) (k (d-1)) (Z.to_nat (ax_p (axes (d-1)))) (k (d-1) - ax_p (axes (d-1)) + (i-1)) v) /\
    (forall o i v, 0 <= o < order -> 1 <= i <= na d -> is_derive (Bf d o i) v (Bf d (o+1) i v)).
  Proof using HS Edim Eaxes HB Hq Hord.
    intros Hd. unfold Bf. replace ((1 <=? d) && (d <=? dim)) with true by (clear - Hd; lia).
    pose proof HB as (ndu0 & a0 & ders0 & l0 & r0 & HB'). pose proof Hq as (Hk & _).
    destruct (tb_p (d-1) ltac:(clear - Hd; lia)) as (P1 & P2 & P3). destruct (Hk (d-1) ltac:(clear - Hd; lia)) as (K1 & K2 & _).
    unfold na. rewrite P1.
    destruct (bspline_rows_any (ax_p (axes (d-1))) (ax_m (axes (d-1))) (ax_U (axes (d-1))) (k (d-1)) order (ndu0 (d-1)) (a0 (d-1)) (ders0 (d-1)) (l0 (d-1)) (r0 (d-1)) P3 P2 K1 K2) as [R1 R2].
    split.
    - intros i v Hi. rewrite HB'. apply R1; [clear - Hord; lia|clear - Hi; lia].
    - intros o i v Ho' Hi. eapply is_derive_ext; [intros t; symmetry; apply HB'|]. rewrite HB'. apply R2; [exact Ho'|clear - Hi; lia].
  Qed.
  Lemma tb_count d : 1 <= d <= 3 -> count_of (na 1) (na 2) (na 3) d = na d.
  Proof using. clear. intros H. assert (C : d = 1 \/ d = 2 \/ d = 3) by lia. destruct C as [-> | [-> | ->]]; reflexivity. Qed.

  Lemma tb_functions a y : 1 <= a <= nen -> tensor_value dim (na 1) (na 2) (fun d i => Bf d 0 i) a y = piece_functions dim axes k a y.
  Proof using HS Edim Eaxes HB Hq Hord.
    intros Ha. unfold piece_functions, tensor_value. cbv zeta.
    assert (PE : forall d, (if d <? dim then ax_p (axes d) else 0) = pr_p E d) by (intros d; rewrite (pr_p_eq dim axes E Edim Eaxes); reflexivity).
    rewrite !PE. change (pr_p E 0 + 1) with (na 1). change (pr_p E 1 + 1) with (na 2).
    f_equal. apply map_ext_in. intros d Hin. apply in_zseq in Hin. pose proof tb_dim as D. pose proof tb_dims as (_ & I1 & J1 & K1 & _).
    set (id := if d =? 1 then _ else _).
    assert (R : 1 <= id <= na d).
    { rewrite <- (tb_count d) by (clear - Hin D; lia). unfold id, count_of. destruct (d =? 1); [pose proof (Z.mod_pos_bound (a-1) (na 1) ltac:(clear - I1; lia)) as Q; clear - Q; lia|].
      destruct (d =? 2); [pose proof (Z.mod_pos_bound ((a-1)/na 1) (na 2) ltac:(clear - J1; lia)) as Q; clear - Q; lia|].
      rewrite Z.div_div by (clear - I1 J1; lia). unfold nen in Ha. clear - Ha I1 J1 K1. 
      pose proof (Z.div_pos (a-1) (na 1 * na 2) ltac:(lia) ltac:(nia)). assert ((a-1) / (na 1 * na 2) < na 3) by (apply Z.div_lt_upper_bound; nia). lia. }
    destruct (tb_rows d ltac:(clear - Hin; lia)) as [R1 _]. rewrite (R1 id (y d) R).
    cbv beta. replace (d - 1 <? dim) with true by (clear - Hin; lia). reflexivity.
  Qed.

  (** The weighted sum of the functions is that of the specification. *)
  Lemma tb_nen : nen = piece_nen dim axes /\ nen = pr_nen E.
  Proof using Edim Eaxes.
    unfold nen, na, piece_nen, pr_nen. change (1-1) with 0. change (2-1) with 1. change (3-1) with 2.
    rewrite !(pr_p_eq dim axes E Edim Eaxes). split; reflexivity.
  Qed.
  Lemma tb_weight W y : Wt = Some W ->
    rsum (fun a => W a * tensor_value dim (na 1) (na 2) (fun d i => Bf d 0 i) a y)%R (zseq 1 nen) = piece_weight dim axes k w y.
  Proof using HS Edim Eaxes HB Hq Hord HW.
    intros EW. pose proof tb_functions as TF. pose proof tb_nen as [N1 N2]. unfold Wt in EW. destruct (pe_W E) as [P|] eqn:EP; [|discriminate]. injection EW as <-.
    pose proof Hq as (_ & _ & _ & Q4 & _).
    destruct w as [w'|]; [|destruct HW as [_ HW']; specialize (HW' eq_refl); discriminate].
    unfold piece_weight. rewrite <- N1. apply rsum_ext. intros a Ha. apply in_zseq in Ha.
    rewrite TF by (clear - Ha; lia). rewrite Q4 by (rewrite <- N2; clear - Ha; lia). reflexivity.
  Qed.
  Lemma tb_value a y : n0 (M y) a = rational_value nen Wt (tensor_value dim (na 1) (na 2) (fun d i => Bf d 0 i)) a y.
  Proof using HS Edim Eaxes. exact (tab_value dim order (na 1) (na 2) (na 3) Bf Wt (fun _ => pb_M q) tb_dims y a). Qed.
  Lemma tb_jet y : piece_weight dim axes k w y <> 0%R ->
    jet dim (match w with Some _ => Z.min order 3 | None => order end) nen M y /\ symmetric dim order nen (M y).
  Proof using HS Edim Eaxes HB Hq Hord HW.
    intros Hw. pose proof tb_weight as TW. pose proof tb_dims as TD.
    assert (R : forall d o i, 1 <= d <= dim -> 0 <= o < order -> 1 <= i <= count_of (na 1) (na 2) (na 3) d -> is_derive (Bf d o i) (y d) (Bf d (o+1) i (y d))).
    { intros d o i Hd Ho' Hi. pose proof tb_dim as D. rewrite tb_count in Hi by (clear - Hd D; lia). apply (tb_rows d Hd); auto. }
    destruct w as [w'|].
    - apply (tab_jet dim order (na 1) (na 2) (na 3) Bf Wt (fun _ => pb_M q) TD y R). intros W EW HZ. apply Hw. rewrite <- (TW W y EW). exact HZ.
    - destruct (C68_tensor_product_derivatives dim order (na 1) (na 2) (na 3) Bf (fun _ => pb_M q) y TD R) as (_ & J & Y).
      assert (E0 : Wt = None) by (unfold Wt; rewrite (proj2 HW eq_refl); reflexivity).
      unfold M. rewrite E0. split; [exact J|exact Y].
  Qed.

  Let D idx c y := eval_field (pr_nen E) (nd_get (M y) idx) (fun a => pb_A q (c + (a-1) * pe_dof E)).
  Lemma tb_D0 c y : 0 <= c < pe_dof E -> D [] c y = piece_field dim axes k w A c y.
  Proof using HS Edim Eaxes HB Hq Hord HW.
    intros Hc. unfold D, eval_field. pose proof tb_nen as [N1 N2]. pose proof tb_functions as TF. pose proof tb_value as TV. pose proof tb_weight as TW0. rewrite (loop_sum _ _ (fun a => nd_get (M y) [] a * pb_A q (c + (a-1) * pe_dof E))%R) by (intros; reflexivity).
    rewrite Rplus_0_l. cbn [nd_get]. unfold piece_field. pose proof Hq as (_ & _ & Q3 & Q4 & _). destruct w as [w'|].
    - assert (EW : exists W, Wt = Some W) by (unfold Wt; destruct (pe_W E); [eexists; reflexivity|destruct HW as [HW' _]; specialize (HW' eq_refl); discriminate]).
      destruct EW as [W EW].
      pose proof (TW0 W y EW) as TW. unfold Rdiv. rewrite rsum_mult_r. rewrite <- N1, <- N2. apply rsum_ext. intros a Ha. apply in_zseq in Ha.
      rewrite TV, EW. unfold rational_value. rewrite TW. rewrite TF by (clear - Ha; lia). rewrite Q3 by (try exact Hc; rewrite <- N2; clear - Ha; lia).
      assert (EW' : W a = w' (active_node dim axes k a)).
      { unfold Wt in EW. destruct (pe_W E); [|discriminate]. injection EW as <-. apply Q4. rewrite <- N2. clear - Ha; lia. }
      rewrite EW'. unfold Rdiv, k. ring.
    - assert (E0 : Wt = None) by (unfold Wt; rewrite (proj2 HW eq_refl); reflexivity).
      unfold piece_weight, Rdiv. rewrite Rinv_1, Rmult_1_r. rewrite <- N1, <- N2. apply rsum_ext. intros a Ha. apply in_zseq in Ha.
      rewrite TV, E0. unfold rational_value. rewrite TF by (clear - Ha; lia). rewrite Q3 by (try exact Hc; rewrite <- N2; clear - Ha; lia). unfold k. ring.
  Qed.
  Lemma tb_diff idx c y : List.Forall (fun i => 1 <= i <= dim) idx ->
    Z.of_nat (length idx) < (match w with Some _ => Z.min order 3 | None => order end) -> piece_weight dim axes k w y <> 0%R ->
    diff_at dim (D idx c) y (fun i => D (i :: idx) c y).
  Proof using HS Edim Eaxes HB Hq Hord HW Ho.
    intros Hi Hl Hw. destruct (tb_jet y Hw) as [J _]. destruct tb_nen as [_ N2].
    set (o := match w with Some _ => _ | None => _ end) in *.
    assert (Ho4 : o <= 4) by (unfold o; destruct w; clear - Hord; lia).
    destruct (C69_field_evaluation dim o nen M y (fun a => pb_A q (c + (a-1) * pe_dof E)) J) as (_ & D1 & D2 & _ & D3 & D4).
    unfold D. rewrite <- N2. clearbody o.
    destruct idx as [|i [|j [|l [|x idx]]]]; cbn [length] in Hl; cbn [nd_get].
    - eapply diff_ext; [|apply D1; clear - Hl; lia]. intros z. unfold eval_field. symmetry. rewrite (loop_sum _ _ (fun a => n0 (M z) a * pb_A q (c + (a-1) * pe_dof E))%R) by (intros; reflexivity).
      rewrite Rplus_0_l. apply rsum_ext. intros; ring.
    - inversion Hi as [|? ? H1]; subst. apply D2; [clear - Hl; lia|exact H1].
    - inversion Hi as [|? ? H1 H']; subst. inversion H' as [|? ? H2]; subst. apply D3; [clear - Hl; lia|exact H2|exact H1].
    - inversion Hi as [|? ? H1 H']; subst. inversion H' as [|? ? H2 H'']; subst. inversion H'' as [|? ? H3]; subst. apply D4; [clear - Hl; lia|exact H3|exact H2|exact H1].
    - exfalso. clear - Hl Ho4. lia.
  Qed.

  (** The tables of the state are those at the point. *)
  Lemma tb_point : M (fun d => u (d-1)) =
    (let B := fun d o i => pe_basis E (d-1) (pb_ID q (d-1)) (pb_point q (d-1)) (pr_p E (d-1)) (pb_order q) (ax_U (pe_axes E (d-1))) o (i-1) in
     let M := basis_funs (pe_dim E) (pb_order q) (pr_p E 0 + 1) (pr_p E 1 + 1) B (pb_M q) in
     match pe_W E with Some _ => rationalize (pb_order q) (pr_nen E) (fun a => pb_W q (a-1)) M | None => M end).
  Proof using HS Edim Eaxes Hq Ho HW.
    cbv zeta. destruct tb_nen as [_ N2]. unfold M, Wt, M0. rewrite Ho, Edim, Eaxes, N2. change (pr_p E 0 + 1) with (na 1). change (pr_p E 1 + 1) with (na 2).
    assert (BE : (fun d o i => Bf d o i (u (d-1))) = (fun d o i => pe_basis E (d-1) (pb_ID q (d-1)) (pb_point q (d-1)) (pr_p E (d-1)) order (ax_U (axes (d-1))) o (i-1))).
    { apply FunctionalExtensionality.functional_extensionality. intros d. apply FunctionalExtensionality.functional_extensionality. intros o.
      apply FunctionalExtensionality.functional_extensionality. intros i. unfold Bf. destruct ((1 <=? d) && (d <=? dim)) eqn:Q; [|reflexivity].
      pose proof Hq as (_ & Q2 & _). rewrite Q2 by (clear - Q; lia). reflexivity. }
    rewrite BE. destruct (pe_W E); reflexivity.
  Qed.

  (** Without a geometry, or with more space than parametric directions, derivatives are parametric. *)
  Lemma tb_evaluate : pe_X E = None \/ dim <> pe_nsd E -> (exists L, pb_vec q = Some L) -> pb_off q = false \/ pb_coll q = true ->
    forall der, 0 <= der <= order -> fst (evaluate E (build E q) der) = Ok /\
    forall idx c, snd (evaluate E (build E q) der) idx c = D idx c (fun d => u (d-1)).
  Proof using HS Edim Eaxes Hq Ho HW.
    intros HX (L & HL) Hoff der Hder. unfold D. rewrite tb_point.
    assert (G : pb_order (build E q) = order /\ pb_vec (build E q) = Some L /\ pb_off (build E q) = pb_off q /\ pb_coll (build E q) = pb_coll q /\ pb_A (build E q) = pb_A q /\
      (match pe_X E with Some _ => if pe_dim E =? pe_nsd E then pb_S (build E q) else pb_M (build E q) | None => pb_M (build E q) end) =
      (let B := fun d o i => pe_basis E (d-1) (pb_ID q (d-1)) (pb_point q (d-1)) (pr_p E (d-1)) (pb_order q) (ax_U (pe_axes E (d-1))) o (i-1) in
       let M := basis_funs (pe_dim E) (pb_order q) (pr_p E 0 + 1) (pr_p E 1 + 1) B (pb_M q) in
       match pe_W E with Some _ => rationalize (pb_order q) (pr_nen E) (fun a => pb_W q (a-1)) M | None => M end)).
    { unfold build. destruct (pe_X E) as [P|].
      - destruct HX as [HX|HX]; [discriminate|]. rewrite Edim. replace (dim =? pe_nsd E) with false by (clear - HX; lia). repeat split; assumption.
      - repeat split; assumption. }
    destruct G as (G1 & G2 & G3 & G4 & G5 & G6). unfold evaluate. rewrite G1, G2, G3, G4, G5, G6.
    replace ((der <? 0) || (order <? der)) with false by (clear - Hder; lia).
    assert (Q : pb_off q && negb (pb_coll q) = false) by (destruct Hoff as [-> | ->]; [reflexivity|apply andb_false_r]). rewrite Q. split; [reflexivity|]. reflexivity.
  Qed.
  (** The value, with any geometry. *)
  Lemma tb_value_any c : (exists L, pb_vec q = Some L) -> pb_off q = false \/ pb_coll q = true -> 0 <= c < pe_dof E ->
    fst (evaluate E (build E q) 0) = Ok /\ snd (evaluate E (build E q) 0) [] c = piece_field dim axes k w A c (fun d => u (d-1)).
  Proof using HS Edim Eaxes HB Hq Hord HW Ho.
    intros (L & HL) Hoff Hc. rewrite <- (tb_D0 c _ Hc). unfold D. rewrite tb_point.
    assert (G : pb_order (build E q) = order /\ pb_vec (build E q) = Some L /\ pb_off (build E q) = pb_off q /\ pb_coll (build E q) = pb_coll q /\ pb_A (build E q) = pb_A q /\
      n0 (match pe_X E with Some _ => if pe_dim E =? pe_nsd E then pb_S (build E q) else pb_M (build E q) | None => pb_M (build E q) end) =
      n0 (let B := fun d o i => pe_basis E (d-1) (pb_ID q (d-1)) (pb_point q (d-1)) (pr_p E (d-1)) (pb_order q) (ax_U (pe_axes E (d-1))) o (i-1) in
       let M := basis_funs (pe_dim E) (pb_order q) (pr_p E 0 + 1) (pr_p E 1 + 1) B (pb_M q) in
       match pe_W E with Some _ => rationalize (pb_order q) (pr_nen E) (fun a => pb_W q (a-1)) M | None => M end)).
    { unfold build. destruct (pe_X E) as [P|]; [destruct (pe_dim E =? pe_nsd E)|]; repeat split; assumption. }
    destruct G as (G1 & G2 & G3 & G4 & G5 & G6). unfold evaluate. rewrite G1, G2, G3, G4, G5.
    replace ((0 <? 0) || (order <? 0)) with false by (clear - Hord; lia).
    assert (Q : pb_off q && negb (pb_coll q) = false) by (destruct Hoff as [-> | ->]; [reflexivity|apply andb_false_r]). rewrite Q. split; [reflexivity|].
    cbn [snd]. match goal with |- eval_field _ (nd_get ?x []) _ = eval_field _ (nd_get ?y []) _ => change (nd_get x []) with (n0 x); change (nd_get y []) with (n0 y) end.
    rewrite G6. reflexivity.
  Qed.

  (** What the three parts give together. *)
  Lemma tb_result : pe_X E = None \/ dim <> pe_nsd E -> (exists L, pb_vec q = Some L) -> pb_off q = false \/ pb_coll q = true ->
    exists (kk : Z -> Z) (DD : list Z -> Z -> pt -> R), spans_of dim axes u kk /\
    (forall c y, 0 <= c < pe_dof E -> DD [] c y = piece_field dim axes kk w A c y) /\
    (forall idx c y, List.Forall (fun i => 1 <= i <= dim) idx ->
       Z.of_nat (length idx) < (match w with Some _ => Z.min order 3 | None => order end) -> piece_weight dim axes kk w y <> 0%R ->
       diff_at dim (DD idx c) y (fun i => DD (i :: idx) c y)) /\
    (forall der, 0 <= der <= order -> fst (evaluate E (build E q) der) = Ok /\
       forall idx c, snd (evaluate E (build E q) der) idx c = DD idx c (fun d => u (d-1))).
  Proof using HS Edim Eaxes HB Hq Hord HW Ho.
    intros H1 H2 H3. exists k, D. split; [apply Hq|]. split; [exact tb_D0|]. split; [exact tb_diff|]. exact (tb_evaluate H1 H2 H3).
  Qed.
    Let f := rational_value nen Wt (tensor_value dim (na 1) (na 2) (fun d i => Bf d 0 i)).
    (** Sums over the functions of the element. *)
    Lemma mp_sum (G : triple -> Z -> R) (g : Z -> R) i y : (forall a, 1 <= a <= nen -> g a = G (active_node dim axes k a) i) ->
      rsum (fun a => g a * f a y)%R (zseq 1 nen) = piece_field dim axes k w G i y.
    Proof using HS Edim Eaxes HB Hq Hord HW Ho.
      intros Hg. unfold piece_field. pose proof tb_nen as [N1 N2]. pose proof tb_functions as TF. pose proof tb_weight as TW0.
      pose proof Hq as (_ & _ & _ & Q4 & _). unfold f. destruct w as [w'|].
      - assert (EW : exists W, Wt = Some W) by (unfold Wt; destruct (pe_W E); [eexists; reflexivity|destruct HW as [HW' _]; specialize (HW' eq_refl); discriminate]).
        destruct EW as [W EW]. pose proof (TW0 W y EW) as TW. unfold Rdiv. rewrite rsum_mult_r. rewrite <- N1. apply rsum_ext. intros a Ha. apply in_zseq in Ha.
        rewrite EW. unfold rational_value. rewrite TW. rewrite TF by (clear - Ha; lia). rewrite Hg by (clear - Ha; lia).
        assert (EW' : W a = w' (active_node dim axes k a)).
        { unfold Wt in EW. destruct (pe_W E); [|discriminate]. injection EW as <-. apply Q4. rewrite <- N2. clear - Ha; lia. }
        rewrite EW'. unfold Rdiv, k. ring.
      - assert (E0 : Wt = None) by (unfold Wt; rewrite (proj2 HW eq_refl); reflexivity).
        unfold piece_weight, Rdiv. rewrite Rinv_1, Rmult_1_r. rewrite <- N1. apply rsum_ext. intros a Ha. apply in_zseq in Ha.
        rewrite E0. unfold rational_value. rewrite TF by (clear - Ha; lia). rewrite Hg by (clear - Ha; lia). unfold k. ring.
    Qed.

  (** With a geometry of the same dimension: the shape functions as functions of the physical point z. *)
  Section Mapped.
    Variable Xn : triple -> Z -> R.
    Hypothesis HX : X = Some Xn.
    Hypothesis Ensd : pe_nsd E = dim.
    Hypothesis HPX : exists P, pe_X E = Some P.
    Hypothesis Hord1 : 1 <= order.
    Variables (V : pt -> Prop) (xi : pt -> pt) (y0 : pt).
    Hypothesis Vopen : forall y, V y -> around dim y V.
    Hypothesis Vcont : forall y, V y -> forall c, 1 <= c <= dim -> cont_at dim (fun z => xi z c) y.
    Hypothesis Vinv : forall y, V y -> forall i, 1 <= i <= dim -> piece_field dim axes k w Xn (i-1) (xi y) = y i.
    Hypothesis Vw : forall y, V y -> piece_weight dim axes k w (xi y) <> 0%R.
    Hypothesis Vdet : forall y, V y -> forall J, (forall i, 1 <= i <= dim -> diff_at dim (piece_field dim axes k w Xn (i-1)) (xi y) (fun d => J d i)) -> det dim J <> 0%R.
    Hypothesis Hy0 : V y0 /\ forall d, 1 <= d <= dim -> xi y0 d = u (d-1).

    Let C i a := pb_X q ((i-1) + (a-1) * pe_nsd E).
    Let X0 := mk_nders (fun i => if (1 <=? i) && (i <=? pe_dim E) then pb_point q (i-1) else n0 (pb_mapX q) i)
                       (n1 (pb_mapX q)) (n2 (pb_mapX q)) (n3 (pb_mapX q)) (n4 (pb_mapX q)).
    Let tab z := tabulate dim order (na 1) (na 2) (na 3) (fun d o i => Bf d o i (xi z d)) Wt (Some C) (pb_M q) X0 (pb_S q) (pb_E q).
    Let F z := snd (fst (tab z)).

    Lemma mp_x i y : 1 <= i <= dim -> rsum (fun a => C i a * f a y)%R (zseq 1 nen) = piece_field dim axes k w Xn (i-1) y.
    Proof using HS Edim Eaxes HB Hq Hord HW Ho HX Ensd.
      intros Hi. pose proof tb_nen as [N1 N2]. apply mp_sum. intros a Ha. unfold C. pose proof Hq as (_ & _ & _ & _ & Q5). rewrite HX in Q5. apply Q5; [rewrite <- N2; exact Ha|rewrite Ensd; clear - Hi; lia].
    Qed.

    Lemma mp_tab y : V y ->
      (forall a, n0 (F y) a = f a (xi y)) /\ jet dim (Z.min order 3) nen F y.
    Proof using HS Edim Eaxes HB Hq Hord HW Ho HX Ensd Hord1 Vopen Vcont Vinv Vw Vdet.
      intros Hy.
      destruct (C35_tabulation dim order (na 1) (na 2) (na 3) Bf Wt C V xi (fun _ => pb_M q) (fun _ => X0) (fun _ => pb_S q) (fun _ => pb_E q) tb_dims Hord1) with (y := y) as (T1 & T2 & _); auto.
      - intros z Hz i Hi. etransitivity; [apply (mp_x i (xi z) Hi)|]. apply Vinv; auto.
      - intros z Hz d o i Hd Ho' Hi. pose proof tb_dim as DB. rewrite tb_count in Hi by (clear - Hd DB; lia). apply (tb_rows d Hd); auto.
      - intros z Hz W EW HZ. apply (Vw z Hz). rewrite <- (tb_weight W (xi z) EW). exact HZ.
      - intros z Hz J HJ. apply (Vdet z Hz). intros i Hi. eapply diff_ext; [|apply (HJ i Hi)]. intros s. apply (mp_x i s Hi).
    Qed.

    Lemma mp_point : F y0 = pb_S (build E q).
    Proof using HS Edim Eaxes Hq Ho HW HX Ensd HPX Hy0.
      destruct HPX as [P HP]. pose proof tb_nen as [_ N2].
      assert (BE : (fun d o i => Bf d o i (xi y0 d)) = (fun d o i => pe_basis E (d-1) (pb_ID q (d-1)) (pb_point q (d-1)) (pr_p E (d-1)) order (ax_U (axes (d-1))) o (i-1))).
      { apply FunctionalExtensionality.functional_extensionality. intros d. apply FunctionalExtensionality.functional_extensionality. intros o.
        apply FunctionalExtensionality.functional_extensionality. intros i. unfold Bf. destruct ((1 <=? d) && (d <=? dim)) eqn:Q; [|reflexivity].
        pose proof Hq as (_ & Q2 & _). rewrite Q2 by (clear - Q; lia). destruct Hy0 as [_ ->]; [reflexivity|clear - Q; lia]. }
      unfold F, tab. rewrite BE. unfold tabulate. cbv zeta. cbn [fst snd]. unfold build. rewrite HP, Ho, Eaxes, Edim, Ensd, Z.eqb_refl.
      cbn [pb_S pb_set_tab]. fold nen. rewrite N2. unfold Wt, C, X0. rewrite Ensd, Edim. change (pr_p E 0 + 1) with (na 1). change (pr_p E 1 + 1) with (na 2).
      destruct (pe_W E); reflexivity.
    Qed.

    Let DM idx c z := eval_field (pr_nen E) (nd_get (F z) idx) (fun a => pb_A q (c + (a-1) * pe_dof E)).
    Lemma mp_result : (exists L, pb_vec q = Some L) -> pb_off q = false \/ pb_coll q = true ->
      exists DD : list Z -> Z -> pt -> R,
      (forall c z, 0 <= c < pe_dof E -> V z -> DD [] c z = piece_field dim axes k w A c (xi z)) /\
      (forall idx c z, List.Forall (fun i => 1 <= i <= dim) idx -> Z.of_nat (length idx) < Z.min order 3 -> V z ->
         diff_at dim (DD idx c) z (fun i => DD (i :: idx) c z)) /\
      (forall der, 0 <= der <= order -> fst (evaluate E (build E q) der) = Ok /\
         forall idx c, snd (evaluate E (build E q) der) idx c = DD idx c y0).
    Proof using HS Edim Eaxes HB Hq Hord HW Ho HX Ensd HPX Hord1 Vopen Vcont Vinv Vw Vdet Hy0.
      intros (L & HL) Hoff. exists DM. pose proof tb_nen as [N1 N2]. split; [|split].
      - intros c z Hc Hz. destruct (mp_tab z Hz) as [T1 _]. unfold DM, eval_field. rewrite (loop_sum _ _ (fun a => n0 (F z) a * pb_A q (c + (a-1) * pe_dof E))%R) by (intros; reflexivity).
        rewrite Rplus_0_l, <- N2. etransitivity; [|apply (mp_sum A (fun a => pb_A q (c + (a-1) * pe_dof E)))].
        + apply rsum_ext. intros a Ha. rewrite T1. ring.
        + intros a Ha. pose proof Hq as (_ & _ & Q3 & _). apply Q3; [rewrite <- N2; exact Ha|exact Hc].
      - intros idx c z Hi Hl Hz. destruct (mp_tab z Hz) as [_ J].
        destruct (C69_field_evaluation dim (Z.min order 3) nen F z (fun a => pb_A q (c + (a-1) * pe_dof E)) J) as (_ & D1 & D2 & _ & D3 & _).
        unfold DM. rewrite <- N2.
        destruct idx as [|i [|j [|l idx]]]; cbn [length] in Hl; cbn [nd_get].
        + eapply diff_ext; [|apply D1; clear - Hl; lia]. intros s. unfold eval_field. symmetry. rewrite (loop_sum _ _ (fun a => n0 (F s) a * pb_A q (c + (a-1) * pe_dof E))%R) by (intros; reflexivity).
          rewrite Rplus_0_l. apply rsum_ext. intros; ring.
        + pose proof (Forall_inv Hi) as H1; apply D2; [clear - Hl; lia|exact H1].
        + pose proof (Forall_inv Hi) as H1. pose proof (Forall_inv (Forall_inv_tail Hi)) as H2. apply D3; [clear - Hl; lia|exact H2|exact H1].
        + exfalso. clear - Hl. lia.
      - intros der Hder. unfold DM. rewrite mp_point.
        assert (G : pb_order (build E q) = order /\ pb_vec (build E q) = Some L /\ pb_off (build E q) = pb_off q /\ pb_coll (build E q) = pb_coll q /\ pb_A (build E q) = pb_A q).
        { unfold build. destruct (pe_X E); [destruct (pe_dim E =? pe_nsd E)|]; repeat split; assumption. }
        destruct G as (G1 & G2 & G3 & G4 & G5). unfold evaluate. rewrite G1, G2, G3, G4, G5.
        replace ((der <? 0) || (order <? der)) with false by (clear - Hder; lia).
        assert (Q : pb_off q && negb (pb_coll q) = false) by (destruct Hoff as [-> | ->]; [reflexivity|apply andb_false_r]). rewrite Q. cbn [fst snd].
        destruct HPX as [P ->]. rewrite Edim, Ensd, Z.eqb_refl. split; reflexivity.
    Qed.
  End Mapped.

  (** The geometry map. *)
  Lemma tb_geom i : pb_off q = false \/ pb_coll q = true ->
    (pe_X E = None -> 0 <= i < dim -> geom_map E (build E q) i = u i) /\
    (forall Xn, X = Some Xn -> pe_X E <> None -> 0 <= i < pe_nsd E -> geom_map E (build E q) i = piece_field dim axes k w Xn i (fun d => u (d-1))).
  Proof using HS Edim Eaxes HB Hq Hord HW Ho.
    intros Hoff. unfold geom_map.
    assert (G : pb_off (build E q) = pb_off q /\ pb_coll (build E q) = pb_coll q /\ pb_point (build E q) = pb_point q).
    { unfold build. destruct (pe_X E); [destruct (pe_dim E =? pe_nsd E)|]; repeat split; assumption. }
    destruct G as (-> & -> & ->).
    assert (Q : pb_off q && negb (pb_coll q) = false) by (destruct Hoff as [-> | ->]; [reflexivity|apply andb_false_r]). rewrite Q. split.
    - intros -> Hi. rewrite Edim. replace (i <? dim) with true by (clear - Hi; lia). apply Hq. exact Hi.
    - intros Xn HX HP Hi. pose proof tb_nen as [N1 N2]. pose proof tb_point as TP. cbv zeta in TP. destruct (pe_X E) as [P|] eqn:EP; [|congruence].
      assert (GM : n0 (pb_mapX (build E q)) (i+1) = loop (pr_nen E) (fun a s => s + pb_X q ((i+1-1) + (a-1) * pe_nsd E) * n0 (M (fun d => u (d-1))) a)%R 0%R).
      { rewrite TP. unfold build. rewrite EP. destruct (pe_dim E =? pe_nsd E); cbn [pb_mapX pb_set_tab]; unfold geometry_map; cbn [n0]; reflexivity. }
      rewrite GM. rewrite (loop_sum _ _ (fun a => pb_X q ((i+1-1) + (a-1) * pe_nsd E) * n0 (M (fun d => u (d-1))) a)%R) by (intros; reflexivity).
      rewrite Rplus_0_l, <- N2. etransitivity; [apply rsum_ext; intros a Ha; rewrite tb_value; reflexivity|].
      apply (mp_sum Xn (fun a => pb_X q ((i+1-1) + (a-1) * pe_nsd E))). intros a Ha. pose proof Hq as (_ & _ & _ & _ & Q5). rewrite HX in Q5.
      replace (i+1-1) with i by (clear; lia). apply Q5; [rewrite <- N2; exact Ha|exact Hi].
  Qed.
End Tables.

(** C79: after IGAProbeSetPoint at u, IGAProbeEvaluate returns the value of the field at u and its partial derivatives:
    on every rank when the probe is collective, otherwise on the ranks that hold the point (zeros elsewhere).  D lists
    the functions of the parametric point: D [] is the field, D [i], D [j; i], ... its derivatives (without weights up
    to the order of the probe, with weights up to the third). *)
Theorem C79_evaluates_the_field :
  forall g2 g3 maxint size dim (axes : Z -> axis Rord) user LY E u order coll A w St,
  setup_ok g2 g3 maxint size dim axes user LY -> probe_of size dim axes LY E -> bspline_tables E -> in_domain dim axes u ->
  0 <= order <= 4 ->
  pe_X E = None \/ (dim <> pe_nsd E /\ exists X P, pe_X E = Some P /\ forall r, 0 <= r < size -> local_copy (ghost_lo LY r) (ghost_width LY r) (pe_nsd E) (P r) X) ->
  match pe_W E, w with
  | Some W, Some w => forall r, 0 <= r < size -> local_copy (ghost_lo LY r) (ghost_width LY r) 1 (W r) (fun t _ => w t)
  | None, None => True
  | _, _ => False
  end ->
  (forall r, 0 <= r < size -> pb_order (St r) = order /\ pb_coll (St r) = coll /\
     exists L, pb_vec (St r) = Some L /\ local_copy (ghost_lo LY r) (ghost_width LY r) (pe_dof E) L A) ->
  exists St', set_point E size u St = Some St' /\
  (exists r, 0 <= r < size /\ pb_off (St' r) = false) /\
  forall r, 0 <= r < size ->
  (coll = false -> pb_off (St' r) = true -> forall der, 0 <= der <= order ->
     fst (evaluate E (St' r) der) = Ok /\ forall idx c, snd (evaluate E (St' r) der) idx c = 0%R) /\
  (coll = true \/ pb_off (St' r) = false ->
    exists k D, spans_of dim axes u k /\
    (forall c y, 0 <= c < pe_dof E -> D [] c y = piece_field dim axes k w A c y) /\
    (forall idx c y, List.Forall (fun i => 1 <= i <= dim) idx ->
       Z.of_nat (length idx) < (match w with Some _ => Z.min order 3 | None => order end) -> piece_weight dim axes k w y <> 0%R ->
       diff_at dim (D idx c) y (fun i => D (i :: idx) c y)) /\
    (forall der, 0 <= der <= order -> fst (evaluate E (St' r) der) = Ok /\
       forall idx c, snd (evaluate E (St' r) der) idx c = D idx c (fun d => u (d-1)))).
Proof.
  intros g2 g3 maxint size dim axes user LY E u order coll A w St HS HE HB Hu Hord HX HW HSt. pose proof HE as (Edim & Eaxes & Egeom).
  assert (X : exists X, match pe_X E, X with Some P, Some X => forall r, 0 <= r < size -> local_copy (ghost_lo LY r) (ghost_width LY r) (pe_nsd E) (P r) X | None, None => True | _, _ => False end).
  { destruct HX as [HX|(_ & X & P & HX & H)]; rewrite HX; [exists None; exact I|exists (Some X); exact H]. }
  destruct X as [X HX'].
  assert (HXd : pe_X E = None \/ dim <> pe_nsd E) by (destruct HX as [HX|(HX & _)]; auto).
  assert (HWn : pe_W E = None <-> w = None) by (destruct (pe_W E), w; try contradiction; split; congruence).
  assert (H0 : 0 <= 0 < size) by (destruct HS as (_ & _ & Q & _); lia).
  assert (Hvec : forall r, 0 <= r < size -> exists L, pb_vec (St r) = Some L /\ local_copy (ghost_lo LY r) (ghost_width LY r) (pe_dof E) L A) by (intros r Hr; apply (HSt r Hr)).
  assert (Horder : forall r, 0 <= r < size -> pb_order (St r) = order) by (intros r Hr; apply (HSt r Hr)).
  assert (Hcoll : forall r, 0 <= r < size -> pb_coll (St r) = coll) by (intros r Hr; apply (HSt r Hr)).
  destruct (C50_some_process_holds_the_point g2 g3 maxint size dim axes user LY E u St HS HE Hu) as (k & _ & _ & _ & (ro & Hro & Hoff) & _).
  assert (BD : forall q, pb_off (build E q) = pb_off q) by (intros q; unfold build; destruct (pe_X E); [destruct (pe_dim E =? pe_nsd E)|]; reflexivity).
  unfold set_point. rewrite (Hcoll 0 H0). destruct coll.
  - destruct (set_point_all_ready g2 g3 maxint size dim axes user LY HS E Edim Eaxes Egeom u Hu St order A w X Hvec Horder HW HX') as (St' & E1 & R).
    exists St'. split; [exact E1|]. split.
    + exists ro. split; [exact Hro|]. destruct (R ro Hro) as (q' & -> & _ & Q & _). rewrite BD, Q. exact Hoff.
    + intros r Hr. split; [discriminate|]. intros _. destruct (R r Hr) as (q' & -> & Q1 & Q2 & Q3 & Q4 & Q5).
      apply (tb_result g2 g3 maxint size dim axes user LY HS E Edim Eaxes HB u A w X q' order HWn Q1 Q3 Hord HXd Q4). right. rewrite Q5. apply Hcoll. exact Hr.
  - eexists. split; [reflexivity|]. cbv beta. split.
    + exists ro. split; [exact Hro|].
      destruct (set_point_self_ready g2 g3 maxint size dim axes user LY HS E Edim Eaxes Egeom u Hu St order A w X Hvec Horder HW HX' ro Hro) as [_ R].
      destruct (R Hoff) as (q' & -> & _ & Q & _). rewrite BD. exact Q.
    + intros r Hr.
      destruct (set_point_self_ready g2 g3 maxint size dim axes user LY HS E Edim Eaxes Egeom u Hu St order A w X Hvec Horder HW HX' r Hr) as [R1 R2].
      destruct (pb_off (locate E r u (St r))) eqn:Q.
      * rewrite (R1 eq_refl). split; [|intros [H|H]; [discriminate|congruence]]. intros _ _ der Hder. unfold evaluate.
        destruct (locate_facts g2 g3 maxint size dim axes user LY HS E Edim Eaxes Egeom u Hu St order A Hvec Horder r Hr) as (_ & _ & _ & _ & F5 & F6 & F7 & _).
        destruct (Hvec r Hr) as (L & V1 & _). rewrite F6, F5, V1, Q, F7, (Hcoll r Hr). replace ((der <? 0) || (order <? der)) with false by lia. split; reflexivity.
      * destruct (R2 eq_refl) as (q' & -> & Q1 & Q2 & Q3 & Q4 & Q5). rewrite BD, Q2. split; [discriminate|]. intros _.
        apply (tb_result g2 g3 maxint size dim axes user LY HS E Edim Eaxes HB u A w X q' order HWn Q1 Q3 Hord HXd Q4). left. exact Q2.
Qed.
Print Assumptions C79_evaluates_the_field.

(** Below the end of the domain (in every direction) the piece is the field itself, the sum over all control points. *)
Theorem C79_piece_is_the_field :
  forall g2 g3 maxint size dim (axes : Z -> axis Rord) user LY u k w A c,
  setup_ok g2 g3 maxint size dim axes user LY -> spans_of dim axes u k ->
  (forall d, 0 <= d < dim -> (u d < ax_U (axes d) (ax_m (axes d) - ax_p (axes d))%Z)%R) ->
  piece_field dim axes k w A c (fun d => u (d-1)) = spline_field dim axes w A c u.
Proof.
  intros g2 g3 maxint size dim axes user LY u k w A c HS Hk Hlt. apply piece_is_field; auto.
  - exact (dim_bounds g2 g3 maxint size dim axes user LY HS).
  - intros d Hd. destruct (setup_wf _ _ _ _ _ _ _ _ HS d Hd) as (l & (_ & (Hp & _ & Hn & _) & _) & _). split; [exact Hn|lia].
  - intros d Hd. destruct (Hk d Hd) as (_ & _ & _ & [H|[_ H]]); [exact H|]. pose proof (Hlt d Hd). lra.
Qed.
Print Assumptions C79_piece_is_the_field.

(** C79 with a geometry map of the dimension of the parameter domain: derivatives are with respect to the physical
    coordinates (up to the third).  xi is the inverse of the map of the element on an open set V of physical space, y0
    the image of the point u.  The coordinates returned by IGAProbeGeomMap are those of y0. *)
Theorem C79_evaluates_the_mapped_field :
  forall g2 g3 maxint size dim (axes : Z -> axis Rord) user LY E u order coll A w X P St,
  setup_ok g2 g3 maxint size dim axes user LY -> probe_of size dim axes LY E -> bspline_tables E -> in_domain dim axes u ->
  1 <= order <= 4 -> pe_nsd E = dim ->
  pe_X E = Some P -> (forall r, 0 <= r < size -> local_copy (ghost_lo LY r) (ghost_width LY r) dim (P r) X) ->
  match pe_W E, w with
  | Some W, Some w => forall r, 0 <= r < size -> local_copy (ghost_lo LY r) (ghost_width LY r) 1 (W r) (fun t _ => w t)
  | None, None => True
  | _, _ => False
  end ->
  (forall r, 0 <= r < size -> pb_order (St r) = order /\ pb_coll (St r) = coll /\
     exists L, pb_vec (St r) = Some L /\ local_copy (ghost_lo LY r) (ghost_width LY r) (pe_dof E) L A) ->
  exists St', set_point E size u St = Some St' /\
  (exists r, 0 <= r < size /\ pb_off (St' r) = false) /\
  forall r, 0 <= r < size -> coll = true \/ pb_off (St' r) = false ->
  exists k, spans_of dim axes u k /\
  (forall i, 0 <= i < dim -> geom_map E (St' r) i = piece_field dim axes k w X i (fun d => u (d-1))) /\
  forall (V : pt -> Prop) (xi : pt -> pt) y0,
  (forall y, V y -> around dim y V) ->
  (forall y, V y -> forall c, 1 <= c <= dim -> cont_at dim (fun z => xi z c) y) ->
  (forall y, V y -> forall i, 1 <= i <= dim -> piece_field dim axes k w X (i-1) (xi y) = y i) ->
  (forall y, V y -> piece_weight dim axes k w (xi y) <> 0%R) ->
  (forall y, V y -> forall J, (forall i, 1 <= i <= dim -> diff_at dim (piece_field dim axes k w X (i-1)) (xi y) (fun d => J d i)) -> det dim J <> 0%R) ->
  V y0 -> (forall d, 1 <= d <= dim -> xi y0 d = u (d-1)) ->
  exists D,
    (forall c z, 0 <= c < pe_dof E -> V z -> D [] c z = piece_field dim axes k w A c (xi z)) /\
    (forall idx c z, List.Forall (fun i => 1 <= i <= dim) idx -> Z.of_nat (length idx) < Z.min order 3 -> V z ->
       diff_at dim (D idx c) z (fun i => D (i :: idx) c z)) /\
    (forall der, 0 <= der <= order -> fst (evaluate E (St' r) der) = Ok /\
       forall idx c, snd (evaluate E (St' r) der) idx c = D idx c y0).
Proof.
  intros g2 g3 maxint size dim axes user LY E u order coll A w X P St HS HE HB Hu Hord Ensd HP HX HW HSt. pose proof HE as (Edim & Eaxes & Egeom).
  assert (HX' : match pe_X E, Some X with Some P, Some X => forall r, 0 <= r < size -> local_copy (ghost_lo LY r) (ghost_width LY r) (pe_nsd E) (P r) X | None, None => True | _, _ => False end).
  { rewrite HP, Ensd. exact HX. }
  assert (HWn : pe_W E = None <-> w = None) by (destruct (pe_W E), w; try contradiction; split; congruence).
  assert (H0 : 0 <= 0 < size) by (destruct HS as (_ & _ & Q & _); lia).
  assert (Hvec : forall r, 0 <= r < size -> exists L, pb_vec (St r) = Some L /\ local_copy (ghost_lo LY r) (ghost_width LY r) (pe_dof E) L A) by (intros r Hr; apply (HSt r Hr)).
  assert (Horder : forall r, 0 <= r < size -> pb_order (St r) = order) by (intros r Hr; apply (HSt r Hr)).
  assert (Hcoll : forall r, 0 <= r < size -> pb_coll (St r) = coll) by (intros r Hr; apply (HSt r Hr)).
  destruct (C50_some_process_holds_the_point g2 g3 maxint size dim axes user LY E u St HS HE Hu) as (k & _ & _ & _ & (ro & Hro & Hoff) & _).
  assert (BD : forall q, pb_off (build E q) = pb_off q) by (intros q; unfold build; destruct (pe_X E); [destruct (pe_dim E =? pe_nsd E)|]; reflexivity).
  assert (HPX : exists P, pe_X E = Some P) by eauto.
  assert (G : exists St', set_point E size u St = Some St' /\ (exists r, 0 <= r < size /\ pb_off (St' r) = false) /\
    forall r, 0 <= r < size -> coll = true \/ pb_off (St' r) = false ->
      exists q', St' r = build E q' /\ ready dim axes E u A w (Some X) q' /\ pb_order q' = order /\ (exists L, pb_vec q' = Some L) /\ (pb_off q' = false \/ pb_coll q' = true)).
  { unfold set_point. rewrite (Hcoll 0 H0). destruct coll.
    - destruct (set_point_all_ready g2 g3 maxint size dim axes user LY HS E Edim Eaxes Egeom u Hu St order A w (Some X) Hvec Horder HW HX') as (St' & E1 & R).
      exists St'. split; [exact E1|]. split.
      + exists ro. split; [exact Hro|]. destruct (R ro Hro) as (q' & -> & _ & Q & _). rewrite BD, Q. exact Hoff.
      + intros r Hr _. destruct (R r Hr) as (q' & Q0 & Q1 & Q2 & Q3 & Q4 & Q5). exists q'. rewrite Q5, (Hcoll r Hr). auto 10.
    - eexists. split; [reflexivity|]. cbv beta. split.
      + exists ro. split; [exact Hro|].
        destruct (set_point_self_ready g2 g3 maxint size dim axes user LY HS E Edim Eaxes Egeom u Hu St order A w (Some X) Hvec Horder HW HX' ro Hro) as [_ R].
        destruct (R Hoff) as (q' & -> & _ & Q & _). rewrite BD. exact Q.
      + intros r Hr [H|H]; [discriminate|].
        destruct (set_point_self_ready g2 g3 maxint size dim axes user LY HS E Edim Eaxes Egeom u Hu St order A w (Some X) Hvec Horder HW HX' r Hr) as [R1 R2].
        destruct (pb_off (locate E r u (St r))) eqn:Q; [rewrite (R1 eq_refl) in H; congruence|].
        destruct (R2 eq_refl) as (q' & Q0 & Q1 & Q2 & Q3 & Q4 & Q5). exists q'. auto 10. }
  destruct G as (St' & G1 & G2 & G3). exists St'. split; [exact G1|]. split; [exact G2|]. intros r Hr Hrun.
  destruct (G3 r Hr Hrun) as (q' & Q0 & Q1 & Q2 & Q3 & Q4). rewrite Q0. exists (pb_ID q'). split; [apply Q1|]. split.
  - intros i Hi. apply (tb_geom g2 g3 maxint size dim axes user LY HS E Edim Eaxes HB u A w (Some X) q' order HWn Q1 Q2 ltac:(lia) i Q4); [reflexivity|congruence|rewrite Ensd; exact Hi].
  - intros V xi y0 V1 V2 V3 V4 V5 V6 V7.
    exact (mp_result g2 g3 maxint size dim axes user LY HS E Edim Eaxes HB u A w (Some X) q' order HWn Q1 Q2 ltac:(lia) X eq_refl Ensd HPX (proj1 Hord) V xi y0 V1 V2 V3 V4 V5 (conj V6 V7) Q3 Q4).
Qed.
Print Assumptions C79_evaluates_the_mapped_field.
