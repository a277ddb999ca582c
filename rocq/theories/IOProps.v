(** C41, C42, C52, C72: files written and read back. *)
From Coq Require Import ZArith List Bool Lia Reals Lra Permutation.
From Coq Require Import ZifyBool ZifyNat.
From Verif Require Import Prelude RealOrd Box AxisModel AxisSpec AxisProofs AxisInitModel AxisInitProofs AxisProofs2 PartModel PartProofs SetupModel
  SetupProofs SetupProps GridModel GridSpec GridProofs GridProofs2 GridSetup GridProps RuleProps IOModel IOSpec IOProofs IOProofs2 IOProofs3.
Import ListNotations.
Open Scope Z_scope.

(** IGASave on any number of processes followed by IGALoad on any number of processes (same header flag), into an IGA
    whose dimension is unset or the same: degrees, knots, elements, control points, weights and properties come back
    exactly, on every copy of every node; the reader stops at the end of what was written; the rational flag is set iff
    two weights differ by more than the tolerance. *)
Section SaveLoad.
  (** The writer: set up by IGASetUp on [size] processes. *)
  Variables (skip : bool) (g2 : Z -> Z -> Z -> Z) (g3 : Z -> Z -> Z -> Z -> Z) (maxint size dim : Z) (axes : Z -> axis Rord) (user : list Z) (LY : Z -> layout).
  Hypothesis HS : setup_ok g2 g3 maxint size dim axes user LY.
  Variables (order1 order2 : list Z) (junk : Z -> Z -> Z) (lv0 : Z -> Z -> R) (gv0 nv0 : Z -> R).
  Hypothesis Ho1 : Permutation order1 (zseq 0 size).
  Hypothesis Ho2 : Permutation order2 (zseq 0 size).
  (** Its contents. *)
  Variables (g : io_iga) (nsd : Z) (Xf : triple -> Z -> R) (Wf : triple -> R) (npd : Z) (Af : triple -> Z -> R).
  Hypothesis Ed : io_dim g = dim.
  Hypothesis Ea : forall i, 0 <= i < dim -> io_axes g i = axes i.
  Hypothesis Eg : forall r, io_geom g r = ly_geom (LY r).
  Hypothesis Hnsd : nsd = 0 \/ dim <= nsd <= 3.
  Hypothesis Hnpd : 0 <= npd.
  Hypothesis Hdata : describes owned_by size g nsd Xf Wf npd Af.
  (** The reader: [size'] processes, for which a process grid exists. *)
  Variables (g2' : Z -> Z -> Z -> Z) (g3' : Z -> Z -> Z -> Z -> Z) (maxint' size' : Z) (user' order1' : list Z) (lv0' : Z -> Z -> R)
            (gv0' nv0' : Z -> R) (tol : R) (X0 W0 : Z -> Z -> R) (dest : io_iga).
  Hypothesis H2' : forall a b c, 0 <= g2' a b c.
  Hypothesis H3' : forall a b c d, 0 <= g3' a b c d.
  Hypothesis Hs' : 1 <= size'.
  Hypothesis Ho1' : Permutation order1' (zseq 0 size').
  Hypothesis HP : forall r, 0 <= r < size' ->
    fst (fst (partition g2' g3' maxint' size' r (map (fun i => ax_nel (axes i)) (zseq 0 dim)) user')) = Ok.
  Hypothesis Hdest : io_dim dest <= 0 \/ io_dim dest = dim.

Theorem C41_save_load_exact :
    exists file, iga_save skip order1 order2 junk lv0 gv0 nv0 g = Some file /\
    forall rest, exists g',
      iga_load size' skip order1' lv0' gv0' nv0' tol g2' g3' maxint' user' X0 W0 dest (file ++ rest) = Some (g', rest) /\
      io_dim g' = dim /\ (forall i, 0 <= i < dim -> same_axis (io_axes g' i) (axes i)) /\
      (exists LY', setup_ok g2' g3' maxint' size' dim (io_axes g') user' LY' /\ forall r, 0 <= r < size' -> io_geom g' r = ly_geom (LY' r)) /\
      describes held_by size' g' nsd Xf Wf npd Af /\
      (io_rational g' = true <-> nsd <> 0 /\ exists t t', in_box zero3 (control_grid dim axes) t /\ in_box zero3 (control_grid dim axes) t' /\ (tol < Wf t - Wf t')%R) /\
      (forall i, 0 <= i < dim -> ax_periodic (io_axes g' i) = ax_periodic (io_axes dest i) /\
         (ax_periodic (io_axes dest i) = ax_periodic (axes i) -> ax_nnp (io_axes g' i) = ax_nnp (axes i))).
Proof.
  destruct Hdata as (Dn & Dp & DX & DA).
  assert (Hdim : 1 <= dim <= 3) by (destruct (setup_form _ _ _ _ _ _ _ _ HS) as (n & _ & _ & H & _); exact H).
  assert (HrA : forall i, 0 <= i < dim -> axis_ready (io_axes g i)) by (intros i Hi; rewrite Ea by auto; destruct HS as (_ & _ & _ & H & _); apply H; auto).
  (* the file *)
  set (sg := save_geometry skip order1 order2 junk lv0 gv0 nv0 g).
  set (sp := save_property skip order1 order2 junk gv0 nv0 g).
  assert (FG : exists l1, (if nsd =? 0 then Some [] else option_map (fun l => WInt nsd :: l) sg) = Some l1 /\
     (nsd <> 0 -> exists X, io_X g = Some X /\ l1 = WInt nsd :: save_array skip order1 order2 junk gv0 nv0 (nsd+1) (io_geom g)
       (fun r e => nth (Z.to_nat e) (pack nsd (vol (fun d => r_gwidth (io_geom g r d))) (X r) (option_map (fun W => W r) (io_W g))) (lv0 r e)))).
  { destruct (Z.eqb_spec nsd 0) as [E|E]; [eexists; split; [reflexivity|contradiction]|].
    destruct (DX E) as (X & EX & _). unfold sg, save_geometry. rewrite Dn. replace (nsd =? 0) with false by lia. rewrite EX. cbn [option_map].
    eexists. split; [reflexivity|]. intros _. exists X. split; reflexivity. }
  assert (FP : exists l2, (if npd =? 0 then Some [] else option_map (fun l => WInt npd :: l) sp) = Some l2 /\
     (npd <> 0 -> exists A, io_A g = Some A /\ l2 = WInt npd :: save_array skip order1 order2 junk gv0 nv0 npd (io_geom g) A)).
  { destruct (Z.eqb_spec npd 0) as [E|E]; [eexists; split; [reflexivity|contradiction]|].
    destruct (DA E) as (A & EA & _). unfold sp, save_property. rewrite Dp. replace (npd =? 0) with false by lia. rewrite EA. cbn [option_map].
    eexists. split; [reflexivity|]. intros _. exists A. split; reflexivity. }
  destruct FG as (l1 & F1 & FG). destruct FP as (l2 & F2 & FP).
  set (info := Z.lor (if nsd =? 0 then 0 else 1) (if npd =? 0 then 0 else 2)).
  exists (((if skip then [] else [WInt IGA_FILE_CLASSID]) ++ [WInt info; WInt dim] ++ flat_map (fun i => save_axis (io_axes g i)) (zseq 0 dim)) ++ l1 ++ l2).
  split. { unfold iga_save. fold sg sp. rewrite Dn, Dp, Ed. fold info. rewrite F1, F2. reflexivity. }
  intros rest. unfold iga_load.
  assert (E0 : forall f, (if skip then Some ((if skip then [] else [WInt IGA_FILE_CLASSID]) ++ f) else
           match rd_int ((if skip then [] else [WInt IGA_FILE_CLASSID]) ++ f) with
           | Some (id, f) => if negb (id =? IGA_FILE_CLASSID) then None else Some f
           | None => None end) = Some f).
  { intros f. destruct skip; cbn [app rd_int]; [reflexivity|]. rewrite Z.eqb_refl. reflexivity. }
  rewrite <- !app_assoc. rewrite E0. cbn [obind app rd_int].
  assert (I1 : negb (Z.land info 1 =? 0) = negb (nsd =? 0)) by (unfold info; destruct (nsd =? 0), (npd =? 0); reflexivity).
  assert (I2 : negb (Z.land info 2 =? 0) = negb (npd =? 0)) by (unfold info; destruct (nsd =? 0), (npd =? 0); reflexivity).
  rewrite I1, I2.
  assert (E1 : io_set_dim dim (io_reset dest) = Some (mk_io_iga dim (io_axes dest) 0 false None None 0 None (io_geom dest))).
  { unfold io_set_dim, io_reset. cbn [io_dim io_axes io_nsd io_rational io_X io_W io_npd io_A io_geom].
    replace ((dim <? 1) || (3 <? dim)) with false by lia. replace ((0 <? io_dim dest) && negb (io_dim dest =? dim)) with false by lia. reflexivity. }
  rewrite E1. cbn [obind io_axes].
  destruct (load_axes_save (io_axes g) dim 0 (io_axes dest) (l1 ++ l2 ++ rest) ltac:(lia) ltac:(intros i Hi; apply HrA; lia)) as (axes' & E2 & R1 & R2).
  rewrite E2. cbn [obind io_dim io_nsd io_rational io_X io_W io_npd io_A io_geom].
  match goal with |- context[io_setup_basic _ _ _ _ _ ?x] => set (g1 := x) end.
  destruct (setup_reader g2' g3' maxint' size' user' dim axes g1 H2' H3' Hs' ltac:(lia)) as (g3_ & LY' & E3 & Q1 & Q2 & Q3 & Q4 & Q5 & Q6 & Q7 & Q8 & Q9 & Q10).
  { intros i Hi. destruct HS as (_ & _ & _ & H & _). apply H; auto. }
  { reflexivity. }
  { intros i Hi. exists (io_axes dest i). specialize (R1 i ltac:(lia)). rewrite Ea in R1 by auto. exact R1. }
  { exact HP. }
  rewrite E3. cbn [obind].
  cbn [g1 io_axes io_nsd io_rational io_X io_W io_npd io_A] in Q2, Q5, Q6, Q7, Q8, Q9, Q10. clearbody g1.
  assert (CG : forall d, 0 <= d < 3 -> geom_size dim (io_axes g3_) d = control_grid dim axes d).
  { intros d Hd. unfold geom_size, control_grid. destruct (d <? dim) eqn:Edd; [|reflexivity]. rewrite Q2 by lia.
    destruct (R1 d ltac:(lia)) as (_ & _ & (A1 & A2 & _) & _). rewrite Ea in A1, A2 by lia. congruence. }
  set (N := control_grid dim axes).
  assert (Wr : forall bs, 1 <= bs -> grid_world size bs N (io_grid bs (io_geom g))).
  { intros bs Hbs. apply (world_ext _ _ _ (io_grid bs (fun r => ly_geom (LY r)))); [intros r _; unfold io_grid; rewrite Eg; reflexivity|].
    exact (geom_world _ _ _ _ _ _ _ _ HS bs Hbs). }
  assert (Wr' : forall bs, 1 <= bs -> grid_world size' bs N (io_grid bs (io_geom g3_))).
  { intros bs Hbs. apply (world_ext _ _ _ (io_grid bs (fun r => ly_geom (LY' r)))); [intros r Hr; unfold io_grid; rewrite Q4 by auto; reflexivity|].
    pose proof (geom_world _ _ _ _ _ _ _ _ Q3 bs Hbs) as (W1 & W2 & W3 & W4 & W5).
    split; [auto|]. split; [auto|]. split; [intros d Hd; unfold N; rewrite <- CG by auto; auto|]. split.
    - intros r Hr. destruct (W4 r Hr) as [W4a W4b]. split; [auto|]. intros d Hd. unfold N. rewrite <- CG by auto. apply W4b; auto.
    - intros t Ht. apply W5. unfold in_box, N in *. destruct t as [[i j] k]. rewrite !CG by lia. exact Ht. }
  assert (Own : forall r, 0 <= r < size -> subbox (fun d => r_lstart (io_geom g r d)) (fun d => r_lwidth (io_geom g r d)) (fun d => r_gstart (io_geom g r d)) (fun d => r_gwidth (io_geom g r d))).
  { intros r Hr. rewrite Eg. exact (geom_own_ghost _ _ _ _ _ _ _ _ HS 1 r Hr). }
  assert (Gh : forall r, 0 <= r < size' -> subbox (fun d => r_gstart (io_geom g3_ r d)) (fun d => r_gwidth (io_geom g3_ r d)) zero3 N).
  { intros r Hr d Hd. unfold N. rewrite <- CG by auto. rewrite Q4 by auto. exact (geom_ghost_in _ _ _ _ _ _ _ _ Q3 1 r Hr d Hd). }
  assert (OH : forall r t, 0 <= r < size -> owned_by (io_geom g r) t -> held_by (io_geom g r) t).
  { intros r [[i j] k] Hr Ht. pose proof (Own r Hr 0 ltac:(lia)). pose proof (Own r Hr 1 ltac:(lia)). pose proof (Own r Hr 2 ltac:(lia)).
    unfold owned_by, held_by, in_box in *. lia. }
  (* geometry *)
  assert (LG : exists g4, (if negb (nsd =? 0) then obind (rd_int (l1 ++ l2 ++ rest)) (fun '(d, f) => obind (io_set_geometry_dim d g3_)
        (fun g => load_geometry size' skip order1' lv0' gv0' nv0' tol X0 W0 g f)) else Some (g3_, l1 ++ l2 ++ rest)) = Some (g4, l2 ++ rest) /\
      io_dim g4 = dim /\ io_axes g4 = io_axes g3_ /\ io_geom g4 = io_geom g3_ /\ io_npd g4 = 0 /\ io_nsd g4 = nsd /\
      (nsd <> 0 -> exists X, io_X g4 = Some X /\ stores held_by size' (io_geom g4) nsd X Xf /\
         match io_W g4 with Some W => stores held_by size' (io_geom g4) 1 W (fun t _ => Wf t) | None => forall t, Wf t = 1%R end) /\
      (io_rational g4 = true <-> nsd <> 0 /\ exists t t', in_box zero3 N t /\ in_box zero3 N t' /\ (tol < Wf t - Wf t')%R)).
  { destruct (Z.eqb_spec nsd 0) as [E|E]; cbn [negb].
    - inversion F1; subst l1. exists g3_. cbn [app]. split; [reflexivity|].
      rewrite Q5, Q6, Q9. split; [auto|]. split; [auto|]. split; [auto|]. split; [auto|]. split; [auto|]. split; [contradiction|].
      split; [discriminate|intros [H _]; contradiction].
    - destruct (FG E) as (X & EX & ->). destruct (DX E) as (X_ & EX_ & HX & HW). rewrite EX in EX_. inversion EX_; subst X_; clear EX_.
      cbn [app rd_int obind].
      assert (SD : io_set_geometry_dim nsd g3_ = Some (mk_io_iga dim (io_axes g3_) nsd false None None 0 (io_A g3_) (io_geom g3_))).
      { unfold io_set_geometry_dim. rewrite Q1, Q5, Q9. replace ((nsd <? 1) || (3 <? nsd)) with false by lia. replace (nsd <? dim) with false by lia.
        replace (0 =? nsd) with false by lia. reflexivity. }
      rewrite SD. cbn [obind]. unfold load_geometry. cbn [io_dim io_axes io_nsd io_npd io_A io_geom]. replace (nsd <? 1) with false by lia.
      destruct (array_roundtrip size size' (nsd+1) N (io_geom g) (io_geom g3_) (Wr (nsd+1) ltac:(lia)) (Wr' (nsd+1) ltac:(lia)) Own Gh
        skip order1 order2 order1' junk lv0' gv0 gv0' nv0 nv0' _ _ (l2 ++ rest) Ho1 Ho2 Ho1'
        (pack_stores size (io_geom g) nsd X (io_W g) Xf Wf lv0 ltac:(lia) OH HX HW)) as (gvec & lvec & EL & Hg & Hl).
      cbv beta in EL. rewrite EL. eexists. split; [reflexivity|]. cbn [io_dim io_axes io_geom io_npd io_nsd io_X io_W io_rational].
      split; [auto|]. split; [auto|]. split; [auto|]. split; [auto|]. split; [auto|].
      destruct (unpack_stores size' (io_geom g3_) nsd lvec X0 W0 Xf Wf ltac:(lia) Hl) as [U1 U2]. split.
      + intros _. eexists. split; [reflexivity|]. split; [exact U1|exact U2].
      + assert (SV : vol (gr_sizes (io_grid (nsd+1) (io_geom g3_) 0)) = vol N).
        { unfold vol. pose proof (Wr' (nsd+1) ltac:(lia)) as W. rewrite (proj1 (w_dir _ _ _ _ W 0 0 ltac:(lia) ltac:(lia))), (proj1 (w_dir _ _ _ _ W 0 1 ltac:(lia) ltac:(lia))), (proj1 (w_dir _ _ _ _ W 0 2 ltac:(lia) ltac:(lia))). reflexivity. }
        rewrite SV.
        pose proof (rational_nodes size' (nsd+1) N _ gvec nsd Wf tol (Wr' (nsd+1) ltac:(lia)) ltac:(lia)
          ltac:(intros t Ht; rewrite (Hg t nsd Ht ltac:(lia)); apply packed_weight)) as RN.
        destruct (Rlt_dec _ _) as [L|L]; split.
        * intros _. split; [exact E|apply RN; exact L].
        * reflexivity.
        * discriminate.
        * intros [_ H]. exfalso. apply L, RN, H. }
  destruct LG as (g4 & E4 & P1 & P2 & P3 & P4 & P5 & P6 & P7). rewrite E4. cbn [obind].
  assert (LP : exists g5, (if negb (npd =? 0) then obind (rd_int (l2 ++ rest)) (fun '(d, f) => obind (io_set_property_dim d g4)
        (fun g => load_property size' skip order1' lv0' gv0' nv0' g f)) else Some (g4, l2 ++ rest)) = Some (g5, rest) /\
      io_dim g5 = io_dim g4 /\ io_axes g5 = io_axes g4 /\ io_geom g5 = io_geom g4 /\ io_npd g5 = npd /\ io_nsd g5 = nsd /\ io_X g5 = io_X g4 /\
      io_W g5 = io_W g4 /\ io_rational g5 = io_rational g4 /\ (npd <> 0 -> exists A, io_A g5 = Some A /\ stores held_by size' (io_geom g5) npd A Af)).
  { destruct (Z.eqb_spec npd 0) as [E|E]; cbn [negb].
    - inversion F2; subst l2. exists g4. cbn [app]. split; [reflexivity|]. rewrite P4, P5, E. auto 10.
      repeat (split; [reflexivity|]). intros; contradiction.
    - destruct (FP E) as (A & EA & ->). destruct (DA E) as (A_ & EA_ & HA). rewrite EA in EA_. inversion EA_; subst A_; clear EA_.
      cbn [app rd_int obind].
      assert (SD : io_set_property_dim npd g4 = Some (mk_io_iga (io_dim g4) (io_axes g4) (io_nsd g4) (io_rational g4) (io_X g4) (io_W g4) npd None (io_geom g4))).
      { unfold io_set_property_dim. rewrite P4. replace (npd <? 0) with false by lia. replace (0 =? npd) with false by lia. reflexivity. }
      rewrite SD. cbn [obind]. unfold load_property. cbn [io_dim io_axes io_nsd io_npd io_A io_geom io_rational io_X io_W]. replace (npd <? 1) with false by lia.
      rewrite P3.
      destruct (array_roundtrip size size' npd N (io_geom g) (io_geom g3_) (Wr npd ltac:(lia)) (Wr' npd ltac:(lia)) Own Gh
        skip order1 order2 order1' junk lv0' gv0 gv0' nv0 nv0' A Af rest Ho1 Ho2 Ho1' HA) as (gvec & lvec & EL & _ & Hl).
      rewrite EL. eexists. split; [reflexivity|]. cbn [io_dim io_axes io_geom io_npd io_nsd io_X io_W io_rational io_A].
      repeat (split; [solve [auto]|]). intros _. eexists. split; [reflexivity|exact Hl]. }
  destruct LP as (g5 & E5 & T1 & T2 & T3 & T4 & T5 & T6 & T7 & T8 & T9). rewrite E5.
  exists g5. split; [reflexivity|]. split; [congruence|]. split.
  { intros i Hi. rewrite T2, P2, Q2 by auto. destruct (R1 i ltac:(lia)) as (_ & _ & H & _). rewrite Ea in H by auto. exact H. }
  split. { exists LY'. rewrite T2, P2. split; [exact Q3|]. intros r Hr. rewrite T3, P3. auto. }
  split. { split; [exact T5|]. split; [exact T4|]. split; [|exact T9]. intros E. rewrite T6, T7, T3. apply P6. exact E. }
  split. { rewrite T8. exact P7. }
  intros i Hi. rewrite T2, P2, Q2 by auto. destruct (R1 i ltac:(lia)) as (_ & _ & _ & H1 & H2). rewrite Ea in H2 by auto. auto.
Qed.

(** The number of basis functions of an axis comes back iff the flags of the reader's and of the writer's axis agree
    (the flag is not in the file). *)
Theorem C42_dofs_restored_iff_flags_agree :
    forall file rest g', iga_save skip order1 order2 junk lv0 gv0 nv0 g = Some file ->
    iga_load size' skip order1' lv0' gv0' nv0' tol g2' g3' maxint' user' X0 W0 dest (file ++ rest) = Some (g', rest) ->
    forall i, 0 <= i < dim ->
      (ax_nnp (io_axes g' i) = ax_nnp (axes i) <-> ax_periodic (io_axes dest i) = ax_periodic (axes i)).
Proof.
  intros file rest g' Ef El i Hi. destruct C41_save_load_exact as (f & Ef' & K). rewrite Ef in Ef'. inversion Ef'; subst f; clear Ef'.
  destruct (K rest) as (g'' & E & _ & Sm & (LY' & S' & _) & _ & _ & Per). rewrite El in E. inversion E; subst g''; clear E.
  destruct (Per i Hi) as [P1 P2]. split; [|exact P2]. intros EN.
  destruct (Sm i Hi) as (A1 & A2 & A3 & _). destruct (setup_wf _ _ _ _ _ _ _ _ HS i Hi) as (l & L & _).
  destruct (setup_wf _ _ _ _ _ _ _ _ S' i Hi) as (l' & L' & _). destruct (wf_nnp _ _ L) as (s & Hs & N1). destruct (wf_nnp _ _ L') as (s' & Hs1 & N2).
  rewrite <- P1. rewrite N1, N2, A1, A2 in EN. rewrite A1 in Hs1. destruct (ax_periodic (io_axes g' i)), (ax_periodic (axes i)); auto; lia.
Qed.
End SaveLoad.
Print Assumptions C41_save_load_exact.
Print Assumptions C42_dofs_restored_iff_flags_agree.

(** ** Examples for C41 *)
(** For any data there are arrays holding it. *)
Definition fill (geom : Z -> Z -> range) (bs : Z) (F : triple -> Z -> R) (r e : Z) : R :=
  let '(i, j, k) := unlin (fun d => r_gwidth (geom r d)) (e / bs) in
  F (i + r_gstart (geom r 0), j + r_gstart (geom r 1), k + r_gstart (geom r 2)) (e mod bs).
Lemma fill_stores : forall size geom bs F, 1 <= bs -> stores held_by size geom bs (fill geom bs F) F.
Proof.
  intros size geom bs F Hbs r [[i j] k] c Hr Ht Hc. unfold fill. rewrite local_node_lin. unfold held_by, in_box in Ht.
  rewrite Z.mul_comm, Z.div_add_l by lia. rewrite (Z.div_small c bs) by lia. rewrite Z.add_0_r. cbn [tsub].
  rewrite (unlin_lin (fun d => r_gwidth (geom r d))) by lia.
  rewrite (Z.add_comm (_ * bs) c), Z.mod_add, Z.mod_small by lia. f_equal. f_equal; [f_equal|]; lia.
Qed.

(** Two processes write a rational curve in the plane with one zero weight and one property, three processes read it. *)
Definition ex_Xf (t : triple) (c : Z) : R := let '(i, j, k) := t in IZR (i * i + 3 * c).
Definition ex_Wf (t : triple) : R := let '(i, j, k) := t in IZR i.
Definition ex_Af (t : triple) (c : Z) : R := let '(i, j, k) := t in IZR (7 * i).
Definition ex_geom (r : Z) : Z -> range := ly_geom (ex_rLY r).
Definition ex_io : io_iga := mk_io_iga 1 ex_raxes 2 true (Some (fill ex_geom 2 ex_Xf)) (Some (fill ex_geom 1 (fun t _ => ex_Wf t))) 1 (Some (fill ex_geom 1 ex_Af)) ex_geom.
Example C41_example : exists file g',
  iga_save false [1; 0] [0; 1] (fun _ _ => 17) (fun _ _ => 5%R) (fun _ => 5%R) (fun _ => 5%R) ex_io = Some file /\
  iga_load 3 false [2; 0; 1] (fun _ _ => 6%R) (fun _ => 6%R) (fun _ => 6%R) (1/1000)%R exact_g2 exact_g3 (2^31-1) [-1] (fun _ _ => 6%R) (fun _ _ => 6%R) io_create file
    = Some (g', []) /\
  io_nsd g' = 2 /\ io_rational g' = true /\ io_npd g' = 1 /\ ax_nnp (io_axes g' 0) = 5 /\
  exists X, io_X g' = Some X /\ X 2 (2 * (4 - r_gstart (io_geom g' 2 0)) + 1) = IZR 19.
Proof.
  destruct ex_setup_ok as (H2 & H3 & _).
  assert (Own : forall r t, 0 <= r < 2 -> owned_by (ex_geom r) t -> held_by (ex_geom r) t).
  { intros r [[i j] k] Hr Ht. pose proof (geom_own_ghost _ _ _ _ _ _ _ _ ex_rsetup_ok 1 r Hr) as B.
    pose proof (B 0 ltac:(lia)). pose proof (B 1 ltac:(lia)). pose proof (B 2 ltac:(lia)). unfold owned_by, held_by, in_box, ex_geom in *. unfold io_grid in *.
    cbn [grid_of gr_lstart gr_lwidth gr_gstart gr_gwidth] in *. lia. }
  assert (D : describes owned_by 2 ex_io 2 ex_Xf ex_Wf 1 ex_Af).
  { split; [reflexivity|]. split; [reflexivity|]. split.
    - intros _. eexists. split; [reflexivity|]. split.
      + intros r t c Hr Ht Hc. apply (fill_stores 2); auto; lia.
      + intros r t c Hr Ht Hc. apply (fill_stores 2 _ 1 (fun t _ => ex_Wf t)); auto; lia.
    - intros _. eexists. split; [reflexivity|]. intros r t c Hr Ht Hc. apply (fill_stores 2); auto; lia. }
  destruct (C41_save_load_exact false _ _ _ _ _ _ _ _ ex_rsetup_ok [1; 0] [0; 1] (fun _ _ => 17) (fun _ _ => 5%R) (fun _ => 5%R) (fun _ => 5%R)
    ltac:(apply perm_swap) ltac:(apply Permutation_refl) ex_io 2 ex_Xf ex_Wf 1 ex_Af eq_refl ltac:(reflexivity) ltac:(reflexivity) ltac:(lia) ltac:(lia) D
    exact_g2 exact_g3 (2^31-1) 3 [-1] [2; 0; 1] (fun _ _ => 6%R) (fun _ => 6%R) (fun _ => 6%R) (1/1000)%R (fun _ _ => 6%R) (fun _ _ => 6%R) io_create
    H2 H3 ltac:(lia)
    ltac:(change (zseq 0 3) with ([0; 1] ++ [2]); change [2; 0; 1] with ([2] ++ [0; 1]); apply Permutation_app_comm)) as (file & Ef & K).
  { intros r Hr. assert (C : r = 0 \/ r = 1 \/ r = 2) by lia. change (map (fun i => ax_nel (ex_raxes i)) (zseq 0 1)) with [3].
    destruct C as [-> | [-> | ->]]; vm_compute; reflexivity. }
  { left. cbn. lia. }
  exists file. destruct (K []) as (g' & El & Dm & Sm & (LY' & S' & EG) & (D1 & D2 & D3 & D4) & Rt & Per). rewrite app_nil_r in El. exists g'.
  split; [exact Ef|]. split; [exact El|]. split; [exact D1|]. split.
  { apply Rt. split; [lia|]. exists (1, 0, 0), (0, 0, 0). unfold control_grid, in_box, zero3. cbn. change (0 <? 1) with true. change (1 <? 1) with false. change (2 <? 1) with false. cbv iota. split; [lia|]. split; [lia|]. lra. }
  split; [exact D2|]. split. { destruct (Per 0 ltac:(lia)) as [_ P]. rewrite P; reflexivity. }
  destruct (D3 ltac:(lia)) as (X & EX & HX & _). exists X. split; [exact EX|].
  assert (Hin : held_by (io_geom g' 2) (4, 0, 0)).
  { destruct (setup_geom_tile _ _ _ _ _ _ _ _ S') as (T1 & T2).
    destruct (setup_form _ _ _ _ _ _ _ _ S') as (n & Hn & HL & _ & Hz & HPn & HLY).
    assert (n = [3]) as ->.
    { destruct n as [|a [|b n]]; cbn [length] in HL; try lia. unfold zprod in Hz. cbn in Hz. f_equal. lia. }
    rewrite EG by lia. rewrite (HLY 2 ltac:(lia)).
    destruct (Sm 0 ltac:(lia)) as (A1 & A2 & A3 & A4 & A5). cbn in A1, A2, A4, A5.
    unfold held_by, layout_of, in_box. cbn [ly_geom]. cbn [Z.ltb Z.compare Pos.compare Pos.compare_cont].
    unfold geom_range. cbn [r_gstart r_gwidth]. rewrite A1, A5. unfold span_at. rewrite A4. vm_compute. intuition congruence. }
  pose proof (HX 2 (4, 0, 0) 1 ltac:(lia) Hin ltac:(lia)) as V. change (ex_Xf (4, 0, 0) 1) with (IZR 19) in V. rewrite <- V. f_equal. unfold local_node.
  assert (Hg : forall d, d = 1 \/ d = 2 -> r_gstart (io_geom g' 2 d) = 0).
  { intros d Hd. rewrite EG by lia. destruct (setup_form _ _ _ _ _ _ _ _ S') as (n & _ & _ & _ & _ & _ & HLY). rewrite (HLY 2 ltac:(lia)).
    unfold layout_of; cbn [ly_geom]. replace (d <? 1) with false by lia. reflexivity. }
  rewrite (Hg 1), (Hg 2) by auto. lia.
Qed.

(** ** C42 is false for periodic axes *)
Definition per_knots (k : Z) : R := IZR (k - 1).
Definition per_axes : Z -> axis Rord := fun _ => mk_axis (O:=Rord) true 1 4 per_knots 2 2 (Some [1; 2]).
Definition per_LY (r : Z) : layout := layout_of 1 per_axes [1] (rank_coords [1] r).
Lemma per_count : forall lo hi v, count_eq (O:=Rord) per_knots lo hi v <= 1.
Proof.
  intros lo hi v. unfold count_eq. pose proof (NoDup_zseq lo (hi - lo + 1)) as ND. apply (NoDup_filter (fun i => keqb (O:=Rord) (per_knots i) v)) in ND.
  assert (U : forall i j, In i (filter (fun i => keqb (O:=Rord) (per_knots i) v) (zseq lo (hi - lo + 1))) ->
    In j (filter (fun i => keqb (O:=Rord) (per_knots i) v) (zseq lo (hi - lo + 1))) -> i = j).
  { intros i j Hi Hj. apply filter_In in Hi, Hj. destruct Hi as [_ Hi], Hj as [_ Hj]. apply keqb_spec, keq_R in Hi. apply keqb_spec, keq_R in Hj.
    unfold per_knots in *. rewrite <- Hj in Hi. apply eq_IZR in Hi. lia. }
  destruct (filter _ _) as [|a [|b l]]; cbn [length]; try lia. exfalso.
  inversion ND as [|? ? N1 _]; subst. apply N1. left. symmetry. apply U; cbn; auto.
Qed.
Lemma per_setup_ok : setup_ok exact_g2 exact_g3 (2^31-1) 1 1 per_axes [-1] per_LY.
Proof.
  destruct ex_setup_ok as (H2 & H3 & _). split; [exact H2|]. split; [exact H3|]. split; [lia|]. split.
  - intros i _. split.
    + exists [1; 2]. split; [reflexivity|]. split; [|split; [|split; [reflexivity|]]].
      * split; [cbn; lia|]. split; [cbn; lia|]. split; [|intros v; apply per_count].
        intros a b Ha Hab Hb. apply kle_R. apply IZR_le. lia.
      * split; [|repeat constructor]. intros k. unfold is_element. rewrite klt_R. cbn [per_axes ax_p ax_m ax_U]. split.
        -- intros [<- | [<- | []]]; (split; [lia|]); apply IZR_lt; lia.
        -- intros [Hk _]. cbn. lia.
      * cbn [per_axes ax_periodic ax_nnp ax_p ax_m ax_U]. pose proof (per_count (4-1) (4-1) (per_knots (4-1))) as C.
        assert (C' : 1 <= count_eq (O:=Rord) per_knots (4-1) (4-1) (per_knots (4-1))); [|lia].
        unfold count_eq. change (zseq (4-1) (4-1-(4-1)+1)) with [3]. cbn [filter].
        assert (E : keqb (O:=Rord) (per_knots 3) (per_knots (4-1)) = true) by (apply keqb_spec, keq_R; reflexivity). rewrite E. cbn. lia.
    + split; apply klt_R; apply IZR_lt; cbn; lia.
  - intros r Hr. assert (r = 0) as -> by lia. unfold stage1, per_LY. change (map (fun i => ax_nel (per_axes i)) (zseq 0 1)) with [2].
    assert (E : partition exact_g2 exact_g3 (2^31-1) 1 0 [2] [-1] = (Ok, [1], rank_coords [1] 0)) by (vm_compute; reflexivity).
    rewrite E. reflexivity.
Qed.
(** A periodic axis with 2 basis functions, written and read back into a fresh IGA, has 3. *)
Theorem C42_periodicity_lost_refuted :
  exists g file g',
    setup_ok exact_g2 exact_g3 (2^31-1) 1 1 (io_axes g) [-1] per_LY /\
    iga_save false [0] [0] (fun _ _ => 0) (fun _ _ => 0%R) (fun _ => 0%R) (fun _ => 0%R) g = Some file /\
    iga_load 1 false [0] (fun _ _ => 0%R) (fun _ => 0%R) (fun _ => 0%R) 0%R exact_g2 exact_g3 (2^31-1) [-1] (fun _ _ => 0%R) (fun _ _ => 0%R) io_create file
      = Some (g', []) /\
    ax_nnp (io_axes g 0) = 2 /\ ax_nnp (io_axes g' 0) = 3.
Proof.
  destruct per_setup_ok as (H2 & H3 & _).
  set (g := mk_io_iga 1 per_axes 0 false None None 0 None (fun r => ly_geom (per_LY r))).
  assert (D : describes owned_by 1 g 0 (fun _ _ => 0%R) (fun _ => 0%R) 0 (fun _ _ => 0%R)).
  { split; [reflexivity|]. split; [reflexivity|]. split; intros H; contradiction. }
  destruct (C41_save_load_exact false _ _ _ _ _ _ _ _ per_setup_ok [0] [0] (fun _ _ => 0) (fun _ _ => 0%R) (fun _ => 0%R) (fun _ => 0%R)
    ltac:(apply Permutation_refl) ltac:(apply Permutation_refl) g 0 (fun _ _ => 0%R) (fun _ => 0%R) 0 (fun _ _ => 0%R) eq_refl ltac:(reflexivity) ltac:(reflexivity) ltac:(lia) ltac:(lia) D
    exact_g2 exact_g3 (2^31-1) 1 [-1] [0] (fun _ _ => 0%R) (fun _ => 0%R) (fun _ => 0%R) 0%R (fun _ _ => 0%R) (fun _ _ => 0%R) io_create
    H2 H3 ltac:(lia) ltac:(apply Permutation_refl)) as (file & Ef & K).
  { intros r Hr. assert (r = 0) as -> by lia. vm_compute. reflexivity. }
  { left. cbn. lia. }
  destruct (K []) as (g' & El & _ & Sm & (LY' & S' & _) & _ & _ & Per). rewrite app_nil_r in El. exists g, file, g'.
  split; [exact per_setup_ok|]. split; [exact Ef|]. split; [exact El|]. split; [reflexivity|].
  destruct (Per 0 ltac:(lia)) as [P _]. destruct (Sm 0 ltac:(lia)) as (A1 & A2 & _). destruct (setup_wf _ _ _ _ _ _ _ _ S' 0 ltac:(lia)) as (l & L & _).
  destruct (wf_nnp _ _ L) as (s & _ & Hn). rewrite Hn, P, A1, A2. reflexivity.
Qed.
Print Assumptions C42_periodicity_lost_refuted.

(** * C52: matrices *)
(** MatView writes, at the natural numbers of two nodes, the entry of these nodes (so the file does not depend on the
    decomposition); MatLoad after MatView is the identity; and a matrix written by one set of processes and read by
    another has the same entry for every pair of nodes and components. *)
Theorem C52_matrix_round_trip :
  forall size bs (N : Z -> Z) (G : Z -> grid) size' (G' : Z -> grid), grid_world size bs N G -> grid_world size' bs N G' ->
  forall A : Z -> Z -> R,
  (forall t c t' c', in_box zero3 N t -> 0 <= c < bs -> in_box zero3 N t' -> 0 <= c' < bs ->
     mat_view size G bs A (bs * lin N t + c) (bs * lin N t' + c')
       = A (bs * ao size G (lin N t) + c) (bs * ao size G (lin N t') + c') /\
     mat_load size' G' bs (mat_view size G bs A) (bs * ao size' G' (lin N t) + c) (bs * ao size' G' (lin N t') + c')
       = A (bs * ao size G (lin N t) + c) (bs * ao size G (lin N t') + c')) /\
  (forall i j, 0 <= i < bs * (N 0 * N 1 * N 2) -> 0 <= j < bs * (N 0 * N 1 * N 2) ->
     mat_load size G bs (mat_view size G bs A) i j = A i j /\
     (forall B, mat_view size G bs (mat_load size G bs B) i j = B i j)).
Proof.
  intros size bs N G size' G' W W' A. assert (Hbs : 1 <= bs) by apply W.
  assert (V : forall b c b' c' B, 0 <= b < vol N -> 0 <= c < bs -> 0 <= b' < vol N -> 0 <= c' < bs ->
    mat_view size G bs B (bs*b + c) (bs*b' + c') = B (bs * ao size G b + c) (bs * ao size G b' + c')).
  { intros b c b' c' B Hb Hc Hb' Hc'. unfold mat_view, sub_matrix. rewrite !(nth_all_is _ _ _ _ W) by auto. reflexivity. }
  assert (Ld : forall s' g' (Ws : grid_world s' bs N g') b c b' c' B, 0 <= b < vol N -> 0 <= c < bs -> 0 <= b' < vol N -> 0 <= c' < bs ->
    mat_load s' g' bs B (bs * ao s' g' b + c) (bs * ao s' g' b' + c') = B (bs * b + c) (bs * b' + c')).
  { intros s' g' Ws b c b' c' B Hb Hc Hb' Hc'. unfold mat_load, sub_matrix.
    pose proof (ao_range _ _ _ _ Ws b Hb). pose proof (ao_range _ _ _ _ Ws b' Hb').
    rewrite !(nth_all_is _ _ _ _ Ws) by auto. rewrite !(ao_inv_ao _ _ _ _ Ws) by auto. reflexivity. }
  split.
  - intros t c t' c' Ht Hc Ht' Hc'. pose proof (lin_in_range N t Ht) as R1. pose proof (lin_in_range N t' Ht') as R2.
    split; [apply V; auto|]. rewrite Ld by auto. apply V; auto.
  - assert (Sp : forall i, 0 <= i < bs * (N 0 * N 1 * N 2) -> exists b c, 0 <= b < vol N /\ 0 <= c < bs /\ i = bs * b + c).
    { intros i Hi. exists (i / bs), (i mod bs). split; [split; [apply Z.div_pos; lia|apply Z.div_lt_upper_bound; unfold vol; lia]|].
      split; [apply Z.mod_pos_bound; lia|apply Z.div_mod; lia]. }
    intros i j Hi Hj. destruct (Sp i Hi) as (b & c & Hb & Hc & ->). destruct (Sp j Hj) as (b' & c' & Hb' & Hc' & ->). split.
    + destruct (ao_bij _ _ _ _ W b Hb) as (x & [Hx Ex] & _). destruct (ao_bij _ _ _ _ W b' Hb') as (x' & [Hx' Ex'] & _).
      subst b b'. rewrite (Ld size G W) by auto. apply V; auto.
    + intros B. rewrite V by auto. apply (Ld size G W); auto.
Qed.
Print Assumptions C52_matrix_round_trip.

(** * C72: vectors *)
(** IGAWriteVec on one set of processes and IGAReadVec on another, same discretisation: every nodal value comes back,
    and the reader stops at the end of what was written. *)
Theorem C72_vector_round_trip :
  forall (O : KnotOrd) g2 g3 maxint size dim (axes : Z -> axis O) user (LY : Z -> layout) g2' g3' maxint' size' user' (LY' : Z -> layout) dof,
  setup_ok g2 g3 maxint size dim axes user LY -> setup_ok g2' g3' maxint' size' dim axes user' LY' -> 1 <= dof ->
  let G := fun r => grid_of dof (ly_node (LY r)) in
  let G' := fun r => grid_of dof (ly_node (LY' r)) in
  let N := fun d => if d <? dim then ax_nnp (axes d) else 1 in
  let M := fun d => if d <? dim then ax_m (axes d) - ax_p (axes d) else 1 in
  let ast := fun r d => r_lstart (ly_geom (LY r) d) in
  let awd := fun r d => r_lwidth (ly_geom (LY r) d) in
  forall junkg junkn order order' n0 n0' V V0 rest, Permutation order (zseq 0 size) -> Permutation order' (zseq 0 size') ->
  exists V', load_vec G' zero3 M order' n0' V0 dof (save_vec size G zero3 M ast awd junkg junkn order n0 V dof ++ rest) = Some (V', rest) /\
    forall t c, in_box zero3 N t -> 0 <= c < dof ->
      V' (dof * ao size' G' (lin N t) + c) = V (dof * ao size G (lin N t) + c).
Proof.
  intros O g2 g3 maxint size dim axes user LY g2' g3' maxint' size' user' LY' dof S S' Hdof G G' N M ast awd junkg junkn order order' n0 n0' V V0 rest Ho Ho'.
  destruct (setup_natural _ _ _ _ _ _ _ _ S dof) as (Q1 & Q2 & Q3 & Q4).
  destruct (setup_natural _ _ _ _ _ _ _ _ S' dof) as (Q1' & Q2' & Q3' & Q4').
  set (X := global_to_natural size G zero3 M ast awd junkg junkn order V n0).
  unfold save_vec, load_vec. fold X.
  destruct (vec_view_load (dof * vol M) n0' X rest) as (y & Ey & Hy). rewrite Ey. eexists. split; [reflexivity|].
  intros t c Ht Hc.
  destruct (C17_global_natural R size dof N G zero3 M ast awd (setup_world _ _ _ _ _ _ _ _ S dof Hdof) (setup_geom_tile _ _ _ _ _ _ _ _ S) Q2 Q1 Q3
    junkg junkn order order V V0 X n0 Ho Ho) as (_ & Gn & _ & _).
  destruct (C17_global_natural R size' dof N G' zero3 M (fun r d => r_lstart (ly_geom (LY' r) d)) (fun r d => r_lwidth (ly_geom (LY' r) d))
    (setup_world _ _ _ _ _ _ _ _ S' dof Hdof) (setup_geom_tile _ _ _ _ _ _ _ _ S') Q2' Q1' Q3'
    junkg junkn order' order' V V0 y n0 Ho' Ho') as (Ng & _ & _ & _).
  rewrite Ng by auto.
  assert (HNM : forall d, 0 <= d < 3 -> N d <= M d) by (intros d Hd; specialize (Q2 d Hd); unfold zero3 in Q2; unfold N, M; unfold node_size, geom_size in Q2; lia).
  assert (E0 : tadd zero3 t = t) by (destruct t as [[i j] k]; unfold tadd, zero3; f_equal).
  assert (HtM : in_box zero3 M t).
  { destruct t as [[i j] k]. pose proof (HNM 0 ltac:(lia)). pose proof (HNM 1 ltac:(lia)). pose proof (HNM 2 ltac:(lia)). unfold in_box, zero3 in *. lia. }
  rewrite E0, Hy.
  - unfold X. rewrite Gn by auto. f_equal. f_equal. f_equal. f_equal. f_equal.
    assert (E1 : tsub zero3 t = t) by (destruct t as [[i j] k]; unfold tsub, zero3; rewrite !Z.sub_0_r; reflexivity).
    rewrite E1. apply modbox_id. exact Ht.
  - pose proof (lin_in_range M t HtM). nia.
Qed.
Print Assumptions C72_vector_round_trip.

(** 6 processes and 1 process. *)
Definition ex_LY1 (r : Z) : layout := layout_of 2 ex_axes [1; 1] (rank_coords [1; 1] r).
Lemma ex_setup1 : setup_ok exact_g2 exact_g3 (2^31-1) 1 2 ex_axes [-1;-1] ex_LY1.
Proof.
  destruct ex_setup_ok as (H2 & H3 & _ & Hr & _). split; [exact H2|]. split; [exact H3|]. split; [lia|]. split; [exact Hr|].
  intros r Hr'. assert (r = 0) as -> by lia. unfold stage1, ex_LY1.
  match goal with |- context [partition ?a ?b ?c ?d ?r ?e ?f] =>
    assert (E : partition a b c d r e f = (Ok, [1; 1], rank_coords [1; 1] 0)) by (vm_compute; reflexivity); rewrite E end. reflexivity.
Qed.
Example C52_C72_example :
  grid_world 6 2 (node_size 2 ex_axes) (fun r => grid_of 2 (ly_node (ex_LY r))) /\
  grid_world 1 2 (node_size 2 ex_axes) (fun r => grid_of 2 (ly_node (ex_LY1 r))) /\
  setup_ok exact_g2 exact_g3 (2^31-1) 6 2 ex_axes [-1;-1] ex_LY /\ setup_ok exact_g2 exact_g3 (2^31-1) 1 2 ex_axes [-1;-1] ex_LY1 /\
  ao 6 (fun r => grid_of 2 (ly_node (ex_LY r))) 5 <> ao 1 (fun r => grid_of 2 (ly_node (ex_LY1 r))) 5.
Proof.
  split; [exact (setup_world _ _ _ _ _ _ _ _ ex_setup_ok 2 ltac:(lia))|]. split; [exact (setup_world _ _ _ _ _ _ _ _ ex_setup1 2 ltac:(lia))|].
  split; [exact ex_setup_ok|]. split; [exact ex_setup1|]. vm_compute. discriminate.
Qed.
