(** Theorems about the DMDAs of an IGA (C122) and about saving vectors through them (C123). *)
From Coq Require Import ZArith List Bool Lia Reals.
From Coq Require Import ZifyBool ZifyNat.
From Verif Require Import Prelude AxisModel AxisSpec PartModel PartSpec PartProofs SetupModel SetupProofs SetupProps
  Box GridModel GridSpec GridProofs GridProofs2 GridSetup GridProps DrawModel DaModel DaProofs.
Import ListNotations.
Open Scope Z_scope.

(** * C122 *)
(** Every process describes the same DMDA, PETSc accepts it, and its boxes are the elements, the control
    points and the nodes that IGASetUp gave to each process ([bs] components). *)
Theorem C122_parts :
  forall (O : KnotOrd) g2 g3 maxint size dim (axes : Z -> axis O) user (LY : Z -> layout) bs r,
  setup_ok g2 g3 maxint size dim axes user LY -> 1 <= bs -> 0 <= r < size ->
  let good := fun (D : Z -> da) (N : Z -> Z) (start width : Z -> Z -> Z) =>
    da_accepted size (D r) /\ da_dim (D r) = dim /\ da_dof (D r) = bs /\
    forall d, 0 <= d < 3 -> da_sizes (D r) d = N d /\ da_periodic (D r) d = false /\
      forall q, 0 <= q < size ->
        da_procs (D q) d = da_procs (D r) d /\ da_sizes (D q) d = da_sizes (D r) d /\ da_ranges (D q) d = da_ranges (D r) d /\
        da_start (D r) q d = start q d /\ da_width (D r) q d = width q d in
  good (create_elem_dm dim LY bs) (fun d => if d <? dim then ax_nel (axes d) else 1)
       (fun q => ly_elem_start (LY q)) (fun q => ly_elem_width (LY q)) /\
  good (create_geom_dm dim LY bs) (fun d => if d <? dim then ax_m (axes d) - ax_p (axes d) else 1)
       (fun q d => r_lstart (ly_geom (LY q) d)) (fun q d => r_lwidth (ly_geom (LY q) d)) /\
  good (create_node_dm dim LY bs) (fun d => if d <? dim then ax_nnp (axes d) else 1)
       (fun q d => r_lstart (ly_node (LY q) d)) (fun q d => r_lwidth (ly_node (LY q) d)).
Proof.
  intros O g2 g3 maxint size dim axes user LY bs r S Hbs Hr good.
  assert (Hdim : 1 <= dim <= 3) by (destruct (setup_form _ _ _ _ _ _ _ _ S) as (n & _ & _ & H & _); exact H).
  assert (P : forall d, (if d <? dim then (match @None (Z -> bool) with Some f => f d | None => false end) else false) = false)
    by (intros d; destruct (d <? dim); reflexivity).
  assert (F : forall rg N s w gs,
    (forall n c i, 0 <= i < dim -> rg (layout_of dim axes n c) i = (s i (pad 1 n i) (pad 0 c i), w i (pad 1 n i) (pad 0 c i))) ->
    (forall i P, 0 <= i < dim -> 1 <= P <= ax_nel (axes i) -> tiles P (N i) (s i P) (w i P)) ->
    (forall r d, 0 <= r < size -> 0 <= d < dim -> 1 <= snd (rg (LY r) d)) ->
    (forall n c i, dim <= i < 3 -> rg (layout_of dim axes n c) i = (0, 1)) ->
    (forall i, dim <= i < 3 -> N i = 1) ->
    (forall n c i, 0 <= i < dim -> gs (layout_of dim axes n c) i = N i) ->
    good (fun r => create_dmda dim LY bs (gs (LY r)) (fun q d => snd (rg (LY q) d)) None true 0 r) N
         (fun q d => fst (rg (LY q) d)) (fun q d => snd (rg (LY q) d))).
  { intros rg N s w gs H1 H2 H3 H4 H5 H6.
    destruct (dm_facts g2 g3 maxint size dim axes user LY S rg N s w gs H1 H2 H3 H4 H5 H6 bs r Hbs Hr) as (A & B & C & D & E & K).
    split; [exact A|]. split; [exact B|]. split; [exact C|]. intros d Hd. split; [apply D; exact Hd|]. split; [apply P|].
    intros q Hq. destruct (E q d Hq Hd) as (E1 & E2 & E3). destruct (K q d Hq Hd) as (K1 & K2). auto. }
  split; [|split].
  - apply (F (fun ly d => (ly_elem_start ly d, ly_elem_width ly d)) _ (fun i P c => dist_s P (ax_nel (axes i)) c)
             (fun i P c => dist_n P (ax_nel (axes i)) c) ly_elem_size); clear F.
    + intros n c i Hi. unfold layout_of; cbn [ly_elem_start ly_elem_width]. replace (i <? dim) with true by lia. reflexivity.
    + intros i p Hi HP. replace (i <? dim) with true by lia. apply dist_tiles; lia.
    + intros q d Hq Hd. destruct (setup_form _ _ _ _ _ _ _ _ S) as (n & Hn & HL & _ & Hz & HP & HLY).
      rewrite (HLY q Hq). unfold layout_of; cbn [snd ly_elem_width]. replace (d <? dim) with true by lia. specialize (HP d Hd).
      apply dist_pos; lia.
    + intros n c i Hi. unfold layout_of; cbn [ly_elem_start ly_elem_width]. replace (i <? dim) with false by lia. reflexivity.
    + intros i Hi. replace (i <? dim) with false by lia. reflexivity.
    + intros n c i Hi. reflexivity.
  - apply (F (fun ly d => (r_lstart (ly_geom ly d), r_lwidth (ly_geom ly d))) _
             (fun i P c => r_lstart (grange P (axes i) c)) (fun i P c => r_lwidth (grange P (axes i) c)) (fun ly d => r_size (ly_geom ly d))); clear F.
    + intros n c i Hi. unfold layout_of; cbn [ly_geom]. replace (i <? dim) with true by lia. reflexivity.
    + intros i p Hi HP. replace (i <? dim) with true by lia. destruct (setup_wf _ _ _ _ _ _ _ _ S i Hi) as (l & L & He).
      apply (geom_tiles (axes i) l p L He HP).
    + intros q d Hq Hd. pose proof (setup_node_facts _ _ _ _ _ _ _ _ S q d Hq ltac:(lia)) as K. cbn [snd]. apply K.
    + intros n c i Hi. unfold layout_of; cbn [ly_geom]. replace (i <? dim) with false by lia. reflexivity.
    + intros i Hi. replace (i <? dim) with false by lia. reflexivity.
    + intros n c i Hi. unfold layout_of; cbn [ly_geom]. replace (i <? dim) with true by lia.
      destruct (setup_wf _ _ _ _ _ _ _ _ S i Hi) as (l & L & He). cbn [geom_range r_size].
      pose proof (wf_ends _ l L He) as (_ & _ & We). rewrite We. lia.
  - apply (F (fun ly d => (r_lstart (ly_node ly d), r_lwidth (ly_node ly d))) _
             (fun i P c => r_lstart (nrange P (axes i) c)) (fun i P c => r_lwidth (nrange P (axes i) c)) (fun ly d => r_size (ly_node ly d))); clear F.
    + intros n c i Hi. unfold layout_of; cbn [ly_node]. replace (i <? dim) with true by lia. reflexivity.
    + intros i p Hi HP. replace (i <? dim) with true by lia. destruct (setup_wf _ _ _ _ _ _ _ _ S i Hi) as (l & L & He).
      apply (node_tiles (axes i) l p L He HP).
    + intros q d Hq Hd. pose proof (setup_node_facts _ _ _ _ _ _ _ _ S q d Hq ltac:(lia)) as K. cbn [snd]. apply K.
    + intros n c i Hi. unfold layout_of; cbn [ly_node]. replace (i <? dim) with false by lia. reflexivity.
    + intros i Hi. replace (i <? dim) with false by lia. reflexivity.
    + intros n c i Hi. unfold layout_of; cbn [ly_node]. replace (i <? dim) with true by lia. reflexivity.
Qed.
Print Assumptions C122_parts.

(** A vector of the IGA seen through a DMDA made by IGACreateNodeDM (DMDAVecGetArrayDOF): component c of
    the entry at grid position t is the coefficient of node t; the positions a process loops over are the
    nodes it owns; the process' part of the vector is exactly its array. *)
Theorem C122_vector_through_node_dm :
  forall (O : KnotOrd) g2 g3 maxint size dim (axes : Z -> axis O) user (LY : Z -> layout) dof r q t c,
  setup_ok g2 g3 maxint size dim axes user LY -> 1 <= dof -> 0 <= r < size -> 0 <= q < size ->
  let G := fun r => grid_of dof (ly_node (LY r)) in
  let N := fun d => if d <? dim then ax_nnp (axes d) else 1 in
  let D := create_node_dm dim LY dof r in
  in_box zero3 N t -> 0 <= c < dof ->
  (in_box (da_start D q) (da_width D q) t <-> off G q <= ao size G (lin N t) < off G (q+1)) /\
  (in_box (da_start D q) (da_width D q) t -> da_index D q t c = dof * ao size G (lin N t) + c) /\
  da_dof D * da_off D q = dof * off G q.
Proof.
  intros O g2 g3 maxint size dim axes user LY dof r q t c S Hdof Hr Hq G N D Ht Hc.
  destruct (C122_parts O g2 g3 maxint size dim axes user LY dof r S Hdof Hr) as (_ & _ & (_ & _ & Hd & K)).
  fold D in Hd, K.
  assert (Es : forall q d, 0 <= q < size -> 0 <= d < 3 -> da_start D q d = gr_lstart (G q) d) by (intros q' d Hq' Hd'; apply (proj2 (proj2 (K d Hd')) q' Hq')).
  assert (Ew : forall q d, 0 <= q < size -> 0 <= d < 3 -> da_width D q d = gr_lwidth (G q) d) by (intros q' d Hq' Hd'; apply (proj2 (proj2 (K d Hd')) q' Hq')).
  pose proof (setup_world _ _ _ _ _ _ _ _ S dof Hdof) as W. fold G in W. change (node_size dim axes) with N in W.
  destruct (C15_numbering_is_permutation size dof N G W) as (_ & _ & _ & _ & _ & _ & Kown & Klex).
  assert (Eb : in_box (da_start D q) (da_width D q) t <-> in_box (gr_lstart (G q)) (gr_lwidth (G q)) t).
  { destruct t as [[i j] k]. unfold in_box. rewrite !Es, !Ew by (auto; lia). reflexivity. }
  assert (Eo : da_off D q = off G q).
  { unfold da_off, off, zsum. f_equal. apply map_ext_in. intros p Hp. apply in_zseq in Hp.
    unfold nlocal, vol. rewrite !Ew by lia. reflexivity. }
  split; [|split].
  - rewrite Eb. apply Kown; auto.
  - intros Hin. apply Eb in Hin. rewrite (Klex q t Hq Hin). unfold da_index. rewrite Hd, Eo. destruct t as [[i j] k].
    unfold tsub, lin. rewrite !Es, !Ew by (auto; lia). reflexivity.
  - rewrite Hd, Eo. reflexivity.
Qed.
Print Assumptions C122_vector_through_node_dm.

(** * C123 *)
Lemma insert_one : forall (l : list (Z * Z)) (x y : Z -> R) s t, In (s, t) l -> 0 <= s -> 0 <= t ->
  (forall s', In (s', t) l -> s' = s) -> insert_pairs l x y t = x s.
Proof.
  intros l x y s t Hin Hs Ht Hu. rewrite insert_pairs_writes. apply writes_spec.
  - intros v Hv. apply in_map_iff in Hv. destruct Hv as ([a b] & E & Hab). cbn [fst snd] in E. injection E as E1 E2. subst b v.
    unfold vpairs in Hab. apply filter_In in Hab. rewrite (Hu a (proj1 Hab)). reflexivity.
  - apply in_map_iff. exists (s, t). split; [reflexivity|]. unfold vpairs. apply filter_In. split; [exact Hin|]. cbn [fst snd]. lia.
Qed.

Section Save.
  Context {O : KnotOrd}.
  Variables (g2 : Z -> Z -> Z -> Z) (g3 : Z -> Z -> Z -> Z -> Z) (maxint size dim : Z) (axes : Z -> axis O) (user : list Z)
            (LY : Z -> layout) (dof r : Z).
  Hypothesis S : setup_ok g2 g3 maxint size dim axes user LY.
  Hypothesis Hdof : 1 <= dof.
  Hypothesis Hr : 0 <= r < size.
  Let G := fun r => grid_of dof (ly_node (LY r)).
  Let N := fun d => if d <? dim then ax_nnp (axes d) else 1.
  Let D := create_node_dm dim LY dof r.

  Lemma save_world : grid_world size dof N G.
  Proof using S Hdof. exact (setup_world _ _ _ _ _ _ _ _ S dof Hdof). Qed.

  (** The pairs are the coefficients of all nodes: (global index, natural index). *)
  Lemma in_da_pairs : forall x y, In (x, y) (da_pairs size D) <->
    exists t c, in_box zero3 N t /\ 0 <= c < dof /\ x = dof * ao size G (lin N t) + c /\ y = dof * lin N t + c.
  Proof using S Hdof Hr.
    pose proof save_world as W.
    destruct (C122_parts O g2 g3 maxint size dim axes user LY dof r S Hdof Hr) as (_ & _ & (_ & _ & Hd & K)). fold D in Hd, K.
    assert (Esz : forall t, lin (da_sizes D) t = lin N t).
    { intros [[i j] k]. unfold lin. rewrite (proj1 (K 0 ltac:(lia))), (proj1 (K 1 ltac:(lia))). reflexivity. }
    assert (Ebox : forall q t, 0 <= q < size -> (in_box (da_start D q) (da_width D q) t <-> in_box (gr_lstart (G q)) (gr_lwidth (G q)) t)).
    { intros q [[i j] k] Hq. unfold in_box.
      pose proof (proj2 (proj2 (K 0 ltac:(lia))) q Hq) as (_ & _ & _ & S0 & W0).
      pose proof (proj2 (proj2 (K 1 ltac:(lia))) q Hq) as (_ & _ & _ & S1 & W1).
      pose proof (proj2 (proj2 (K 2 ltac:(lia))) q Hq) as (_ & _ & _ & S2 & W2).
      rewrite S0, S1, S2, W0, W1, W2. reflexivity. }
    assert (X : forall q t c, 0 <= q < size -> in_box (da_start D q) (da_width D q) t -> 0 <= c < dof -> in_box zero3 N t /\ da_index D q t c = dof * ao size G (lin N t) + c).
    { intros q t c Hq Hin Hc. assert (HtN : in_box zero3 N t) by (apply (own_in_grid _ _ _ _ W q t Hq); apply Ebox; auto). split; [exact HtN|].
      apply (C122_vector_through_node_dm O g2 g3 maxint size dim axes user LY dof r q t c S Hdof Hr Hq HtN Hc). exact Hin. }
    intros x y. unfold da_pairs. rewrite in_flat_map. split.
    - intros (q & Hq & H). apply in_zseq in Hq. apply in_flat_map in H. destruct H as (t & Ht & H). apply In_box in Ht.
      apply in_map_iff in H. destruct H as (c & E & Hc). apply in_zseq in Hc. rewrite Hd in Hc. apply pair_equal_spec in E. destruct E as [ <- <- ].
      destruct (X q t c ltac:(lia) Ht ltac:(lia)) as [HtN Ei]. exists t, c. rewrite Ei, Hd, Esz. repeat split; auto; lia.
    - intros (t & c & HtN & Hc & -> & ->). pose proof W as W'. destruct W' as (_ & _ & _ & _ & HU). destruct (HU _ HtN) as (q & [Hq Hin] & _).
      exists q. split; [apply in_zseq; lia|]. apply in_flat_map. exists t. split; [apply In_box; apply Ebox; auto|].
      apply in_map_iff. exists c. split; [|apply in_zseq; rewrite Hd; lia].
      apply Ebox in Hin; auto. rewrite (proj2 (X q t c Hq Hin Hc)), Hd, Esz. reflexivity.
  Qed.

  Lemma entry_nonneg : forall t c, in_box zero3 N t -> 0 <= c < dof -> 0 <= dof * ao size G (lin N t) + c /\ 0 <= dof * lin N t + c.
  Proof using S Hdof.
    intros t c Ht Hc. pose proof save_world as W. pose proof (lin_in_range N _ Ht) as R1. pose proof (ao_range _ _ _ _ W _ R1) as R2.
    assert (0 <= dof * lin N t) by (apply Z.mul_nonneg_nonneg; lia). assert (0 <= dof * ao size G (lin N t)) by (apply Z.mul_nonneg_nonneg; lia). lia.
  Qed.

  Lemma view_entry : forall v f0 t c, in_box zero3 N t -> 0 <= c < dof ->
    vec_view size D v f0 (dof * lin N t + c) = v (dof * ao size G (lin N t) + c).
  Proof using S Hdof Hr.
    intros v f0 t c Ht Hc. destruct (entry_nonneg t c Ht Hc) as [P1 P2]. unfold vec_view. apply insert_one; auto.
    - apply in_da_pairs. exists t, c. auto.
    - intros s' H. apply in_da_pairs in H. destruct H as (u & d & Hu & Hd & -> & E).
      apply block_inj in E; auto. destruct E as [E ->]. apply lin_inj in E; auto. subst u. reflexivity.
  Qed.
  Lemma load_entry : forall f w0 t c, in_box zero3 N t -> 0 <= c < dof ->
    vec_load size D f w0 (dof * ao size G (lin N t) + c) = f (dof * lin N t + c).
  Proof using S Hdof Hr.
    intros f w0 t c Ht Hc. destruct (entry_nonneg t c Ht Hc) as [P1 P2]. unfold vec_load. apply insert_one; auto.
    - apply in_map_iff. exists (dof * ao size G (lin N t) + c, dof * lin N t + c). split; [reflexivity|]. apply in_da_pairs. exists t, c. auto.
    - intros s' H. apply in_map_iff in H. destruct H as ([a b] & E & H). unfold swap in E. cbn [fst snd] in E. injection E as -> ->.
      apply in_da_pairs in H. destruct H as (u & d & Hu & Hd & E & ->).
      apply block_inj in E; auto. destruct E as [E ->]. apply (ao_inj _ _ _ _ save_world) in E; [|apply lin_in_range; auto|apply lin_in_range; auto].
      apply lin_inj in E; auto. subst u. reflexivity.
  Qed.
End Save.

(** A saved vector is in natural order whatever the distribution: coefficient c of node t is entry
    dof * (i + j*N0 + k*N0*N1) + c of the file. *)
Theorem C123_file_is_natural :
  forall (O : KnotOrd) g2 g3 maxint size dim (axes : Z -> axis O) user (LY : Z -> layout) dof r (v f0 : Z -> R) i j k c,
  setup_ok g2 g3 maxint size dim axes user LY -> 1 <= dof -> 0 <= r < size ->
  let G := fun r => grid_of dof (ly_node (LY r)) in
  let N := fun d => if d <? dim then ax_nnp (axes d) else 1 in
  0 <= i < N 0 -> 0 <= j < N 1 -> 0 <= k < N 2 -> 0 <= c < dof ->
  vec_view size (create_node_dm dim LY dof r) v f0 (dof * (i + j * N 0 + k * (N 0 * N 1)) + c) =
  v (dof * ao size G (i + j * N 0 + k * (N 0 * N 1)) + c).
Proof.
  intros O g2 g3 maxint size dim axes user LY dof r v f0 i j k c S Hdof Hr G N Hi Hj Hk Hc.
  assert (HtN : in_box zero3 N (i, j, k)) by (unfold in_box, zero3; rewrite !Z.add_0_l; auto).
  exact (view_entry g2 g3 maxint size dim axes user LY dof r S Hdof Hr v f0 (i, j, k) c HtN Hc).
Qed.
Print Assumptions C123_file_is_natural.

(** Saved on one set of processes and loaded on another (the same axes): every node has its
    coefficients. *)
Theorem C123_load_restores :
  forall (O : KnotOrd) g2 g3 maxint dim (axes : Z -> axis O) dof
         size user (LY : Z -> layout) r size' user' (LY' : Z -> layout) r' (v f0 w0 : Z -> R) t c,
  setup_ok g2 g3 maxint size dim axes user LY -> setup_ok g2 g3 maxint size' dim axes user' LY' ->
  1 <= dof -> 0 <= r < size -> 0 <= r' < size' ->
  let G := fun r => grid_of dof (ly_node (LY r)) in
  let G' := fun r => grid_of dof (ly_node (LY' r)) in
  let N := fun d => if d <? dim then ax_nnp (axes d) else 1 in
  in_box zero3 N t -> 0 <= c < dof ->
  let file := vec_view size (create_node_dm dim LY dof r) v f0 in
  vec_load size' (create_node_dm dim LY' dof r') file w0 (dof * ao size' G' (lin N t) + c) = v (dof * ao size G (lin N t) + c).
Proof.
  intros O g2 g3 maxint dim axes dof size user LY r size' user' LY' r' v f0 w0 t c S S' Hdof Hr Hr' G G' N Ht Hc file.
  etransitivity; [exact (load_entry g2 g3 maxint size' dim axes user' LY' dof r' S' Hdof Hr' file w0 t c Ht Hc)|].
  exact (view_entry g2 g3 maxint size dim axes user LY dof r S Hdof Hr v f0 t c Ht Hc).
Qed.
Print Assumptions C123_load_restores.

(** ** Example *)
(** The periodic x clamped grid of C15 on 6 processes (8 x 7 nodes, two fields): hypotheses met; the
    widths of the 3 x 2 boxes, the box of rank 4, and the places of node (3, 5). *)
Example C122_C123_example :
  setup_ok exact_g2 exact_g3 (2^31-1) 6 2 ex_axes [-1;-1] ex_LY /\
  let D := create_node_dm 2 ex_LY 2 5 in
  (da_procs D 0, da_procs D 1, da_procs D 2) = (3, 2, 1) /\
  (da_ranges D 0, da_ranges D 1, da_ranges D 2) = ([3; 3; 2], [3; 4], [1]) /\
  (da_start D 4 0, da_width D 4 0, da_start D 4 1, da_width D 4 1) = (3, 3, 3, 4) /\
  da_index D 4 (3, 5, 0) 1 = 2 * ao 6 ex_G (3 + 8 * 5) + 1 /\
  map (fun r => (da_start (create_elem_dm 2 ex_LY 1 0) r 0, da_width (create_elem_dm 2 ex_LY 1 0) r 0)) [0; 1; 2] = [(0, 3); (3, 3); (6, 2)].
Proof. split; [exact ex_setup_ok|]. vm_compute. repeat split. Qed.
