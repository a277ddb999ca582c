(** C90-C93: what IGAPreparePCBDDC tells the balancing domain decomposition preconditioner. *)
From Coq Require Import ZArith List Bool Lia Permutation Sorted Reals.
From Coq Require Import ZifyBool ZifyNat.
From Verif Require Import Prelude RealOrd AxisModel AxisSpec AxisInitModel AxisProofs PartModel PartSpec PartProofs SetupModel SetupProofs SetupProps GridModel GridSpec GridProofs GridSetup GridProps ElemSpec BCSpec PcProofs2 PcProps BddcModel BddcSpec BddcProofs BddcProofs2 BddcProofs3 Box.
Import ListNotations.
Open Scope Z_scope.

(** * C90 *)
(** PetscSortInt: an increasing rearrangement. *)
Definition sorts (sort : list Z -> list Z) : Prop := forall l, Permutation (sort l) l /\ StronglySorted Z.le (sort l).
(** An owned block inside the ghosted box [0,shape). *)
Definition block_args (shape start width : Z -> Z) : Prop :=
  forall d, 0 <= d < 3 -> 0 <= start d /\ 1 <= width d /\ start d + width d <= shape d.

(** The arrays are a compressed adjacency structure that fills the allocated memory exactly; the row of a degree of
    freedom lists all components of the nodes that are next to its node on the (wrapped) local grid and lie in the
    same layer around the owned block. *)
Theorem C90_adjacency_graph : forall sort bs wrap shape start width xadj0 adjy0,
  sorts sort -> 1 <= bs -> block_args shape start width ->
  let '(nvtx, xadj, adjy) := bddc_graph sort bs wrap shape start width xadj0 adjy0 in
  nvtx = bs * (shape 0 * shape 1 * shape 2) /\
  xadj 0 = 0 /\ xadj nvtx = graph_nadj bs wrap shape start width /\ (forall x, 0 <= x < nvtx -> xadj x <= xadj (x + 1)) /\
  (forall q, q < 0 \/ nvtx < q -> xadj q = xadj0 q) /\ (forall y, y < 0 \/ xadj nvtx <= y -> adjy y = adjy0 y) /\
  forall t c, in_box zero3 shape t -> 0 <= c < bs ->
    forall y, In y (csr_row xadj adjy (local_dof shape bs t c)) <->
      exists u c', in_box zero3 shape u /\ 0 <= c' < bs /\ y = local_dof shape bs u c' /\
        beside wrap shape t u /\ same_layer start width t u.
Proof.
  intros sort bs wrap shape start width xadj0 adjy0 Hsort Hbs Hargs. unfold bddc_graph.
  pose proof (graph_fill_rows sort bs wrap shape start width xadj0 adjy0) as H.
  destruct (graph_fill sort bs wrap shape start width xadj0 adjy0) as [[pos X] A]. destruct H as (_ & H0 & Hm & _ & Hrow & Hend & HX & HA).
  assert (Hshape : forall d, 0 <= d < 3 -> 1 <= shape d) by (intros d Hd; specialize (Hargs d Hd); lia).
  rewrite (length_row_list sort bs wrap shape start width Hbs Hshape) in *.
  assert (En : graph_nvtx bs shape = bs * vol shape) by (unfold graph_nvtx, vol; ring). rewrite En.
  split; [reflexivity|]. split; [exact H0|]. split.
  { rewrite Hend. apply row_total; auto. intros l. apply Hsort. }
  split; [exact Hm|]. split; [exact HX|]. split; [exact HA|].
  intros t c Ht Hc y. pose proof (local_dof_range bs shape t c Hbs Ht Hc) as Hr. rewrite (Hrow _ Hr).
  rewrite (nth_row_list sort bs wrap shape start width Hbs Hshape t c Ht Hc). rewrite in_row_entries. split.
  - intros (v & c' & Hv & Hc' & ->). apply (Permutation_in v (proj1 (Hsort _))) in Hv. apply (in_vertices bs wrap shape start width Hargs t v Ht) in Hv.
    destruct Hv as (u & Hu & Hb & Hl & ->). exists u, c'. split; [exact Hu|]. split; [exact Hc'|]. split; [reflexivity|]. split; [exact Hb|exact Hl].
  - intros (u & c' & Hu & Hc' & -> & Hb & Hl). exists (lin shape u), c'. split; [|split; [exact Hc'|reflexivity]].
    apply (Permutation_in _ (Permutation_sym (proj1 (Hsort _)))). apply (in_vertices bs wrap shape start width Hargs t _ Ht). exists u. auto.
Qed.
Print Assumptions C90_adjacency_graph.

Lemma beside_sym W N t u : beside W N t u -> beside W N u t.
Proof.
  intros (d & s & Hd & Hs & H & H'). exists d, (- s). split; [auto|]. split; [lia|]. split; [intros; symmetry; apply H; auto|].
  destruct H' as [H'|(Hw & q & Hq)]; [left; lia|right]. split; auto. exists (- q). lia.
Qed.

(** The graph is undirected and every degree of freedom is adjacent to itself. *)
Theorem C90_symmetric : forall sort bs wrap shape start width xadj0 adjy0,
  sorts sort -> 1 <= bs -> block_args shape start width ->
  let '(nvtx, xadj, adjy) := bddc_graph sort bs wrap shape start width xadj0 adjy0 in
  forall x, 0 <= x < nvtx -> In x (csr_row xadj adjy x) /\
    (forall y, In y (csr_row xadj adjy x) -> 0 <= y < nvtx /\ In x (csr_row xadj adjy y)).
Proof.
  intros sort bs wrap shape start width xadj0 adjy0 Hsort Hbs Hargs.
  pose proof (C90_adjacency_graph sort bs wrap shape start width xadj0 adjy0 Hsort Hbs Hargs) as H.
  destruct (bddc_graph sort bs wrap shape start width xadj0 adjy0) as [[nvtx X] A]. destruct H as (En & _ & _ & _ & _ & _ & H).
  assert (Hshape : forall d, 0 <= d < 3 -> 1 <= shape d) by (intros d Hd; specialize (Hargs d Hd); lia).
  intros x Hx. rewrite En in Hx. destruct (local_dof_surj bs shape x Hbs Hshape Hx) as (t & c & Ht & Hc & ->). split.
  - apply (H t c Ht Hc). exists t, c. split; [auto|]. split; [auto|]. split; [auto|]. split; [|intros d Hd; reflexivity].
    exists 0, 0. split; [lia|]. split; [lia|]. split; [auto|]. left. lia.
  - intros y Hy. apply (H t c Ht Hc) in Hy. destruct Hy as (u & c' & Hu & Hc' & -> & Hb & Hl). split.
    + rewrite En. apply local_dof_range; auto.
    + apply (H u c' Hu Hc'). exists t, c. split; [auto|]. split; [auto|]. split; [auto|]. split; [apply beside_sym; auto|]. intros d Hd. symmetry. apply Hl; auto.
Qed.
Print Assumptions C90_symmetric.

(** Rows are strictly increasing, so without repetition, when every wrapped direction has at least three local nodes. *)
Theorem C90_no_repetition : forall sort bs wrap shape start width xadj0 adjy0,
  sorts sort -> 1 <= bs -> block_args shape start width -> (forall d, 0 <= d < 3 -> wrap d = true -> 3 <= shape d) ->
  let '(nvtx, xadj, adjy) := bddc_graph sort bs wrap shape start width xadj0 adjy0 in
  forall x, 0 <= x < nvtx -> StronglySorted Z.lt (csr_row xadj adjy x).
Proof.
  intros sort bs wrap shape start width xadj0 adjy0 Hsort Hbs Hargs H3. unfold bddc_graph.
  pose proof (graph_fill_rows sort bs wrap shape start width xadj0 adjy0) as H.
  destruct (graph_fill sort bs wrap shape start width xadj0 adjy0) as [[pos X] A]. destruct H as (_ & _ & _ & _ & Hrow & _).
  assert (Hshape : forall d, 0 <= d < 3 -> 1 <= shape d) by (intros d Hd; specialize (Hargs d Hd); lia).
  rewrite (length_row_list sort bs wrap shape start width Hbs Hshape) in Hrow.
  assert (En : graph_nvtx bs shape = bs * vol shape) by (unfold graph_nvtx, vol; ring). rewrite En.
  intros x Hx. rewrite (Hrow x Hx). destruct (local_dof_surj bs shape x Hbs Hshape Hx) as (t & c & Ht & Hc & ->).
  rewrite (nth_row_list sort bs wrap shape start width Hbs Hshape t c Ht Hc). apply sorted_row; auto.
  apply sorted_strict; [apply Hsort|]. apply (Permutation_NoDup (Permutation_sym (proj1 (Hsort _)))). apply NoDup_vertices; auto.
Qed.
Print Assumptions C90_no_repetition.

(** The arguments IGAPreparePCBDDC computes meet these conditions on every process, and the numbering of the graph is
    that of the ghosted box of the local-to-global mapping. *)
Theorem C90_arguments : forall (O : KnotOrd) g2 g3 maxint size dim (axes : Z -> axis O) user LY r,
  setup_ok g2 g3 maxint size dim axes user LY -> 0 <= r < size ->
  let '(wrap, shape, start, width) := graph_args dim axes (LY r) in
  block_args shape start width /\ (forall d, 0 <= d < 3 -> shape d = r_gwidth (ly_node (LY r) d)) /\
  (forall d, 0 <= d < 3 -> wrap d = true -> d < dim /\ ax_periodic (axes d) = true /\ ly_procs (LY r) d = 1 /\ shape d = ax_m (axes d) - ax_p (axes d) /\ ax_p (axes d) + 1 <= shape d).
Proof.
  intros O g2 g3 maxint size dim axes user LY r S Hr. unfold graph_args. split; [|split].
  - intros d Hd. pose proof (setup_node_facts g2 g3 maxint size dim axes user LY S r d Hr Hd) as F.
    destruct (d <? dim) eqn:E; [|lia]. pose proof (bd_axis g2 g3 maxint size dim axes user LY S r d Hr ltac:(lia)) as B. cbv zeta in B.
    destruct (1 <? ly_procs (LY r) d) eqn:E1; [clear B; lia|]. assert (Hg : r_gstart (ly_node (LY r) d) = 0) by (apply B; lia). clear B. lia.
  - intros d Hd. destruct (d <? dim) eqn:E; [reflexivity|].
    destruct (setup_form g2 g3 maxint size dim axes user LY S) as (n & Hn & HL & Hdim & Hz & HP & HLY). rewrite (HLY r Hr). unfold layout_of. cbn [ly_node]. rewrite E. reflexivity.
  - intros d Hd Hw. destruct (d <? dim) eqn:E; [|discriminate]. destruct (1 <? ly_procs (LY r) d) eqn:E1; [discriminate|].
    pose proof (bd_axis g2 g3 maxint size dim axes user LY S r d Hr ltac:(lia)) as (B1 & B2 & B3 & B4 & B5 & B6 & B7 & B8). cbv zeta in B2, B3, B4, B5, B6, B8.
    assert (Hg : r_gstart (ly_node (LY r) d) = 0) by (apply B5; lia). assert (Hg2 : r_gstart (ly_node (LY r) d) + r_gwidth (ly_node (LY r) d) = ax_m (axes d) - ax_p (axes d)) by (apply B6; lia).
    split; [lia|]. split; [exact Hw|]. split; [lia|]. split; lia.
Qed.
Print Assumptions C90_arguments.

(** One linear periodic element on one process: the two local nodes list each other twice. *)
Definition isort (l : list Z) : list Z := fold_right (fix ins a l := match l with [] => [a] | b :: l' => if a <=? b then a :: l else b :: ins a l' end) [] l.
Lemma isort_sorts : sorts isort.
Proof.
  intros l. induction l as [|a l (P & Q)]; [split; constructor|]. cbn [isort fold_right]. fold (isort l).
  set (ins := fix ins a l := match l with [] => [a] | b :: l' => if a <=? b then a :: l else b :: ins a l' end).
  assert (P1 : forall l, Permutation (ins a l) (a :: l)).
  { induction l0 as [|b l0 IH]; [reflexivity|]. cbn [ins]. destruct (a <=? b); [reflexivity|]. etransitivity; [apply perm_skip, IH|]. apply perm_swap. }
  assert (Q1 : forall l, StronglySorted Z.le l -> StronglySorted Z.le (ins a l)).
  { intros l0 Hl. induction Hl as [|b l0 Hl IH Hb]; [repeat constructor|]. cbn [ins]. destruct (a <=? b) eqn:E.
    - constructor; [constructor; auto|]. constructor; [lia|]. apply List.Forall_forall. intros y Hy. pose proof (proj1 (List.Forall_forall _ _) Hb y Hy). lia.
    - constructor; [exact IH|]. apply List.Forall_forall. intros y Hy. apply (Permutation_in y (P1 l0)) in Hy. destruct Hy as [<-|Hy]; [lia|]. apply (proj1 (List.Forall_forall _ _) Hb y Hy). }
  split; [etransitivity; [apply P1|]; apply perm_skip, P|apply Q1, Q].
Qed.

Definition lin_axis : axis Zord := snd (axis_set_knots 3 (arr 0 [0;1;2;3]) (@mk_axis Zord true 1 1 (fun _ => 0) 1 1 (Some [0]))).
Definition lin_LY (r : Z) : layout := layout_of 1 (fun _ => lin_axis) [1] (rank_coords [1] r).
Lemma lin_setup_ok : setup_ok exact_g2 exact_g3 (2^31-1) 1 1 (fun _ => lin_axis) [-1] lin_LY.
Proof.
  destruct ex_setup_ok as (H2 & H3 & _). split; [exact H2|]. split; [exact H3|]. split; [lia|]. split.
  - intros i _. split; [|split; reflexivity].
    apply (set_knots_wf (@mk_axis Zord true 1 1 (fun _ => 0) 1 1 (Some [0])) _ 3 (arr 0 [0;1;2;3])). reflexivity.
  - intros r Hr. replace r with 0 by lia. unfold stage1, lin_LY.
    match goal with |- context [partition ?a ?b ?c ?d ?r ?e ?f] =>
      let v := eval vm_compute in (partition a b c d r e f) in
      assert (E : partition a b c d r e f = v) by (vm_compute; reflexivity); rewrite E end; reflexivity.
Qed.
Theorem C90_repetition_refuted : exists (axes : Z -> axis Zord) LY,
  setup_ok exact_g2 exact_g3 (2^31-1) 1 1 axes [-1] LY /\
  let '(wrap, shape, start, width) := graph_args 1 axes (LY 0) in
  let '(nvtx, xadj, adjy) := bddc_graph isort 1 wrap shape start width (fun _ => 0) (fun _ => 0) in
  nvtx = 2 /\ csr_row xadj adjy 0 = [0; 1; 1].
Proof. exists (fun _ => lin_axis), lin_LY. split; [exact lin_setup_ok|]. vm_compute. auto. Qed.
Print Assumptions C90_repetition_refuted.

(** Two components on the middle of three processes: the hypotheses hold and the graph is not trivial. *)
Example C90_example : sorts isort /\ block_args (fun d => if d =? 0 then 4 else 1) (fun _ => 0) (fun d => if d =? 0 then 2 else 1) /\
  let '(nvtx, xadj, adjy) := bddc_graph isort 2 (fun _ => false) (fun d => if d =? 0 then 4 else 1) (fun _ => 0) (fun d => if d =? 0 then 2 else 1) (fun _ => 7) (fun _ => 7) in
  map xadj (zseq 0 9) = [0; 4; 8; 12; 16; 18; 20; 22; 24] /\ csr_row xadj adjy 1 = [0; 1; 2; 3] /\ csr_row xadj adjy 4 = [4; 5].
Proof.
  split; [exact isort_sorts|]. split; [|vm_compute; auto]. intros d Hd. destruct (d =? 0); lia.
Qed.

(** * C91 *)
(** Joined local nodes are the same or neighbouring nodes of the (periodic) grid, if no direction handled by one
    process wraps with more than two repeated basis functions. *)
Theorem C91_joined_nodes_are_neighbours : forall (O : KnotOrd) g2 g3 maxint size dim (axes : Z -> axis O) user LY r sort bs xadj0 adjy0,
  setup_ok g2 g3 maxint size dim axes user LY -> 0 <= r < size -> sorts sort -> 1 <= bs ->
  (forall d, 0 <= d < dim -> ax_periodic (axes d) = true -> ly_procs (LY r) d = 1 -> ax_m (axes d) - ax_p (axes d) - ax_nnp (axes d) <= 2) ->
  let '(wrap, shape, start, width) := graph_args dim axes (LY r) in
  let '(nvtx, xadj, adjy) := bddc_graph sort bs wrap shape start width xadj0 adjy0 in
  let N := node_size dim axes in
  let glob := global_node N (fun d => r_gstart (ly_node (LY r) d)) in
  forall t u c c', in_box zero3 shape t -> in_box zero3 shape u -> 0 <= c < bs -> 0 <= c' < bs ->
    In (local_dof shape bs u c') (csr_row xadj adjy (local_dof shape bs t c)) ->
    beside (fun d => (d <? dim) && ax_periodic (axes d)) N (glob t) (glob u).
Proof.
  intros O g2 g3 maxint size dim axes user LY r sort bs xadj0 adjy0 S Hr Hsort Hbs Hrep.
  pose proof (C90_arguments O g2 g3 maxint size dim axes user LY r S Hr) as HA.
  destruct (graph_args dim axes (LY r)) as [[[wrap shape] start] width]. destruct HA as (Hargs & Hsh & Hw).
  pose proof (C90_adjacency_graph sort bs wrap shape start width xadj0 adjy0 Hsort Hbs Hargs) as H.
  destruct (bddc_graph sort bs wrap shape start width xadj0 adjy0) as [[nvtx X] A]. destruct H as (_ & _ & _ & _ & _ & _ & H).
  intros N glob t u c c' Ht Hu Hc Hc' Hin. apply (H t c Ht Hc) in Hin. destruct Hin as (u' & c'' & Hu' & Hc'' & E & Hb & _).
  destruct (local_dof_inj bs shape u u' c' c'' Hu Hu' Hc' Hc'' E) as (<- & <-). clear E H Hu' Hc''.
  destruct Hb as (d & s & Hd & Hs & H0 & Hm). 
  assert (HN : forall d, 0 <= d < 3 -> 1 <= N d) by (intros d' Hd'; pose proof (setup_node_facts g2 g3 maxint size dim axes user LY S r d' Hr Hd') as F; apply F).
  assert (Eg : forall x d', 0 <= d' < 3 -> coord (glob x) d' = (r_gstart (ly_node (LY r) d') + coord x d') mod N d').
  { intros x d' Hd'. unfold glob, global_node. rewrite coord_modbox, coord_tadd by auto. reflexivity. }
  assert (Htc := Ht). rewrite in_box_coord in Htc. specialize (Htc d Hd). assert (Huc := Hu). rewrite in_box_coord in Huc. specialize (Huc d Hd). unfold zero3 in Htc, Huc.
  specialize (HN d Hd). pose proof (Hsh d Hd) as Hshd.
  assert (Hex : exists s', -1 <= s' <= 1 /\ (coord (glob u) d = coord (glob t) d + s' \/ ((d <? dim) && ax_periodic (axes d) = true /\ (N d | coord (glob u) d - (coord (glob t) d + s'))))).
  { rewrite !Eg by auto. set (g := r_gstart (ly_node (LY r) d)) in *. set (x := coord t d) in *. set (y := coord u d) in *.
    (* a periodic direction: working modulo N *)
    assert (Hmod : forall z, exists q, z mod N d = z + q * N d) by (intros z; exists (- (z / N d)); pose proof (Z.div_mod z (N d) ltac:(lia)); lia).
    destruct ((d <? dim) && ax_periodic (axes d)) eqn:Eper.
    - assert (Hdiv : exists s' q, -1 <= s' <= 1 /\ y - (x + s') = q * N d).
      { destruct Hm as [Hm|(Hwd & q & Hq)]; [exists s, 0; split; [auto|lia]|].
        destruct (Hw d Hd Hwd) as (Hdlt & Hp & Hpr & Hgeo & Hge). assert (Hdd : 0 <= d < dim) by lia. specialize (Hrep d Hdd Hp Hpr).
        pose proof (setup_node_facts g2 g3 maxint size dim axes user LY S r d Hr Hd) as (_ & F & _). unfold geom_size in F. fold N in F.
        replace (d <? dim) with true in F by lia.
        assert (EN : N d = ax_nnp (axes d)) by (unfold N, node_size; replace (d <? dim) with true by lia; reflexivity).
        assert (Q : q = -1 \/ q = 0 \/ q = 1).
        { assert (-1 <= q <= 1); [|lia]. split.
          - destruct (Z_lt_le_dec q (-1)) as [L|]; auto. exfalso. assert (q * shape d <= (-2) * shape d) by (apply Z.mul_le_mono_nonneg_r; lia). lia.
          - destruct (Z_lt_le_dec 1 q) as [L|]; auto. exfalso. assert (2 * shape d <= q * shape d) by (apply Z.mul_le_mono_nonneg_r; lia). lia. }
        destruct Q as [-> | [-> | ->]].
        - (* y = 0, x = shape-1 *)
          assert (Hs1 : s = 1) by lia. assert (y = 0) by lia. assert (x = shape d - 1) by lia.
          assert (K : shape d - N d = 0 \/ shape d - N d = 1 \/ shape d - N d = 2) by lia. destruct K as [K|[K|K]].
          + exists 1, (-1). lia.
          + exists 0, (-1). lia.
          + exists (-1), (-1). lia.
        - exists s, 0. lia.
        - assert (Hs1 : s = -1) by lia. assert (x = 0) by lia. assert (y = shape d - 1) by lia.
          assert (K : shape d - N d = 0 \/ shape d - N d = 1 \/ shape d - N d = 2) by lia. destruct K as [K|[K|K]].
          + exists (-1), 1. lia.
          + exists 0, 1. lia.
          + exists 1, 1. lia. }
      destruct Hdiv as (s' & q & Hs' & Hq). exists s'. split; [auto|]. right. split; [auto|].
      destruct (Hmod (g + y)) as (q1 & ->). destruct (Hmod (g + x)) as (q2 & ->). exists (q + q1 - q2). lia.
    - exists s. split; [auto|]. left.
      destruct Hm as [Hm|(Hwd & _)].
      2:{ exfalso. destruct (Hw d Hd Hwd) as (Hdlt & Hp & _). rewrite Hp in Eper. lia. }
      assert (Hlt : 0 <= g + x < N d /\ 0 <= g + y < N d); [|rewrite !Z.mod_small by lia; lia].
      clear Hmod Hargs Hsh Hw Hrep H0. unfold N, node_size in *. destruct (d <? dim) eqn:E1.
      + pose proof (bd_axis g2 g3 maxint size dim axes user LY S r d Hr ltac:(lia)) as (_ & B2 & _ & B4 & _). cbv zeta in B2, B4. fold g in B2, B4.
        pose proof (setup_wf g2 g3 maxint size dim axes user LY S d ltac:(lia)) as (l & L & _). destruct (wf_nnp (axes d) l L) as (s0 & _ & En).
        cbn [andb] in Eper. rewrite Eper in En. lia.
      + destruct (setup_form g2 g3 maxint size dim axes user LY S) as (n & _ & _ & _ & _ & _ & HLY).
        assert (Eg0 : ly_node (LY r) d = unit_range) by (rewrite (HLY r Hr); unfold layout_of; cbn [ly_node]; rewrite E1; reflexivity).
        unfold g. rewrite Eg0 in *. cbn [r_gwidth r_gstart unit_range] in *. lia. }
  destruct Hex as (s' & Hs' & Hex). exists d, s'. split; [auto|]. split; [auto|]. split; [|exact Hex].
  intros d' Hd' Hn. rewrite !Eg by auto. rewrite (H0 d' Hd' Hn). reflexivity.
Qed.
Print Assumptions C91_joined_nodes_are_neighbours.

(** A cubic periodic direction with four elements on one process: the first and the last of the seven local nodes are
    joined although they stand for the nodes 0 and 2 of a ring of four. *)
Definition cub_axis : axis Zord := snd (axis_set_knots 10 (arr 0 [0;1;2;3;4;5;6;7;8;9;10]) (@mk_axis Zord true 3 1 (fun _ => 0) 1 1 (Some [0]))).
Definition cub_LY (r : Z) : layout := layout_of 1 (fun _ => cub_axis) [1] (rank_coords [1] r).
Lemma cub_setup_ok : setup_ok exact_g2 exact_g3 (2^31-1) 1 1 (fun _ => cub_axis) [-1] cub_LY.
Proof.
  destruct ex_setup_ok as (H2 & H3 & _). split; [exact H2|]. split; [exact H3|]. split; [lia|]. split.
  - intros i _. split; [|split; reflexivity].
    apply (set_knots_wf (@mk_axis Zord true 3 1 (fun _ => 0) 1 1 (Some [0])) _ 10 (arr 0 [0;1;2;3;4;5;6;7;8;9;10])). reflexivity.
  - intros r Hr. replace r with 0 by lia. unfold stage1, cub_LY.
    match goal with |- context [partition ?a ?b ?c ?d ?r ?e ?f] =>
      let v := eval vm_compute in (partition a b c d r e f) in
      assert (E : partition a b c d r e f = v) by (vm_compute; reflexivity); rewrite E end; reflexivity.
Qed.
Theorem C91_joined_nodes_are_neighbours_refuted : exists (axes : Z -> axis Zord) LY,
  setup_ok exact_g2 exact_g3 (2^31-1) 1 1 axes [-1] LY /\ (ax_p (axes 0), ax_nel (axes 0), ax_nnp (axes 0), ax_periodic (axes 0)) = (3, 4, 4, true) /\
  let '(wrap, shape, start, width) := graph_args 1 axes (LY 0) in
  let '(nvtx, xadj, adjy) := bddc_graph isort 1 wrap shape start width (fun _ => 0) (fun _ => 0) in
  let glob := global_node (node_size 1 axes) (fun d => r_gstart (ly_node (LY 0) d)) in
  exists t u, in_box zero3 shape t /\ in_box zero3 shape u /\
    In (local_dof shape 1 u 0) (csr_row xadj adjy (local_dof shape 1 t 0)) /\ glob t = (0, 0, 0) /\ glob u = (2, 0, 0) /\
    ~ beside (fun d => (d <? 1) && ax_periodic (axes d)) (node_size 1 axes) (glob t) (glob u).
Proof.
  exists (fun _ => cub_axis), cub_LY. split; [exact cub_setup_ok|]. split; [vm_compute; reflexivity|].
  assert (Hg0 : global_node (node_size 1 (fun _ => cub_axis)) (fun d => r_gstart (ly_node (cub_LY 0) d)) (0,0,0) = (0,0,0)) by (vm_compute; reflexivity).
  assert (Hg6 : global_node (node_size 1 (fun _ => cub_axis)) (fun d => r_gstart (ly_node (cub_LY 0) d)) (6,0,0) = (2,0,0)) by (vm_compute; reflexivity).
  assert (Hrow : let '(wrap, shape, start, width) := graph_args 1 (fun _ => cub_axis) (cub_LY 0) in
    let '(nvtx, xadj, adjy) := bddc_graph isort 1 wrap shape start width (fun _ => 0) (fun _ => 0) in
    (map shape [0;1;2], local_dof shape 1 (6,0,0) 0, csr_row xadj adjy (local_dof shape 1 (0,0,0) 0)) = ([7;1;1], 6, [0;1;6])) by (vm_compute; reflexivity).
  revert Hrow. destruct (graph_args 1 (fun _ => cub_axis) (cub_LY 0)) as [[[wrap shape] start] width].
  destruct (bddc_graph isort 1 wrap shape start width (fun _ => 0) (fun _ => 0)) as [[nvtx X] A].
  intros Hrow. cbn [map] in Hrow. injection Hrow as S0 S1 S2 Er. change (csr_row X A (local_dof shape 1 (0,0,0) 0) = [0;1;6]) in Er.
  assert (El : local_dof shape 1 (6,0,0) 0 = 6) by (unfold local_dof, lin; lia). intros glob. exists (0,0,0), (6,0,0). unfold glob. rewrite Hg0, Hg6.
  split; [unfold in_box, zero3; lia|]. split; [unfold in_box, zero3; lia|]. split; [rewrite El, Er; cbn [In]; auto|]. split; [auto|]. split; [auto|].
  intros (d & s & Hd & Hs & H0 & Hm). destruct (Z.eq_dec d 0) as [-> | Hn].
  - change (coord (2,0,0) 0) with 2 in Hm. change (coord (0,0,0) 0) with 0 in Hm. destruct Hm as [Hm|(_ & q & Hq)]; [lia|].
    assert (EN : node_size 1 (fun _ => cub_axis) 0 = 4) by (vm_compute; reflexivity). rewrite EN in Hq. lia.
  - specialize (H0 0 ltac:(lia) ltac:(lia)). discriminate H0.
Qed.
Print Assumptions C91_joined_nodes_are_neighbours_refuted.

(** The hypotheses hold on the six processes of the two-dimensional example, and there are joined nodes. *)
Example C91_example : setup_ok exact_g2 exact_g3 (2^31-1) 6 2 ex_axes [-1;-1] ex_LY /\
  map (fun r => map (ly_procs (ex_LY r)) [0;1]) (zseq 0 6) = repeat [3;2] 6 /\
  let '(wrap, shape, start, width) := graph_args 2 ex_axes (ex_LY 1) in
  let '(nvtx, xadj, adjy) := bddc_graph isort 1 wrap shape start width (fun _ => 0) (fun _ => 0) in
  (map shape [0;1;2], map width [0;1;2], csr_row xadj adjy (local_dof shape 1 (1,1,0) 0)) = ([5;5;1], [3;3;1], [1;5;6;7;11]).
Proof. split; [exact ex_setup_ok|]. split; vm_compute; reflexivity. Qed.

(** * C92 *)
(** On every process the Dirichlet list holds exactly the local degrees of freedom with a prescribed boundary value, and
    the Neumann list exactly the remaining ones on a non-periodic face; both are increasing and as long as the counts
    they were allocated with. *)
Theorem C92_boundary_sets : forall (O : KnotOrd) g2 g3 maxint size dim (axes : Z -> axis O) user LY r bs (value : Z -> Z -> list (Z * R)) table,
  setup_ok g2 g3 maxint size dim axes user LY -> 0 <= r < size -> 1 <= bs ->
  (forall d s c v, In (c, v) (value d s) -> 0 <= c < bs) ->
  let '(shape, atbnd, field) := boundary_args dim axes value (LY r) in
  let '((nd, ld), (nn, ln)) := bddc_boundary dim bs shape atbnd field in
  let per := fun d => ax_periodic (axes d) in let N := node_size dim axes in
  let glob := global_node N (fun d => r_gstart (ly_node (LY r) d)) in
  (forall d, 0 <= d < 3 -> shape d = r_gwidth (ly_node (LY r) d)) /\
  nd = Z.of_nat (length ld) /\ nn = Z.of_nat (length ln) /\ StronglySorted Z.lt ld /\ StronglySorted Z.lt ln /\
  (forall y, In y ld \/ In y ln -> exists t c, in_box zero3 shape t /\ 0 <= c < bs /\ y = local_dof shape bs t c) /\
  forall t c, in_box zero3 shape t -> 0 <= c < bs ->
    (In (local_dof shape bs t c) ld <-> node_prescribed dim per N value table (glob t) c <> None) /\
    (In (local_dof shape bs t c) ln <->
       (exists d s, 0 <= d < dim /\ 0 <= s < 2 /\ node_on_face per N (glob t) (d, s) = true) /\ node_prescribed dim per N value table (glob t) c = None).
Proof.
  intros O g2 g3 maxint size dim axes user LY r bs value table S Hr Hbs Hval.
  destruct (boundary_args dim axes value (LY r)) as [[shape atbnd] field] eqn:EB. unfold boundary_args in EB. injection EB as Esh Eat Efi.
  assert (Hsh : forall d, 0 <= d < 3 -> shape d = r_gwidth (ly_node (LY r) d)).
  { intros d Hd. rewrite <- Esh. destruct (d <? dim) eqn:E; [reflexivity|].
    destruct (setup_form g2 g3 maxint size dim axes user LY S) as (n & Hn & HL & Hdim & Hz & HP & HLY). rewrite (HLY r Hr). unfold layout_of. cbn [ly_node]. rewrite E. reflexivity. }
  assert (Hshape : forall d, 0 <= d < 3 -> 1 <= shape d) by (intros d Hd; rewrite (Hsh d Hd); pose proof (setup_node_facts g2 g3 maxint size dim axes user LY S r d Hr Hd) as F; lia).
  assert (Hfield : forall d s f, 0 <= d < dim -> 0 <= s < 2 -> In f (field d s) -> 0 <= f < bs).
  { intros d s f Hd Hs Hf. rewrite <- Efi in Hf. destruct ((d <? dim) && negb (ax_periodic (axes d)) && (ly_coord (LY r) d =? (if s =? 0 then 0 else ly_procs (LY r) d - 1))); [|destruct Hf].
    apply in_map_iff in Hf. destruct Hf as ([k v] & <- & Hf). apply (Hval d s k v Hf). }
  pose proof (boundary_spec dim bs shape atbnd field Hbs Hshape Hfield) as H.
  destruct (bddc_boundary dim bs shape atbnd field) as [[nd ld] [nn ln]]. destruct H as (Hnd & Hnn & Sd & Sn & Hy & H).
  intros per N glob. split; [exact Hsh|]. split; [exact Hnd|]. split; [exact Hnn|]. split; [exact Sd|]. split; [exact Sn|]. split.
  { intros y Hin. apply local_dof_surj; auto. }
  intros t c Ht Hc. specialize (H t c Ht Hc).
  pose proof (setup_form g2 g3 maxint size dim axes user LY S) as (_ & _ & _ & Hdim & _).
  (* the local faces are the global ones *)
  assert (Hface : forall d s, 0 <= d < dim -> 0 <= s < 2 -> at_face shape atbnd t d s = node_on_face per N (glob t) (d, s)).
  { intros d s Hd Hs. assert (Hd3 : 0 <= d < 3) by lia. unfold at_face, node_on_face. rewrite <- Eat. replace (d <? dim) with true by lia. cbn [andb].
    unfold per at 1. destruct (ax_periodic (axes d)) eqn:Ep; cbn [negb andb]; [reflexivity|].
    pose proof (bd_axis g2 g3 maxint size dim axes user LY S r d Hr Hd) as (B1 & B2 & B3 & B4 & B5 & B6 & _). cbv zeta in B2, B3, B4, B5, B6.
    pose proof (setup_wf g2 g3 maxint size dim axes user LY S d Hd) as (l & L & _). destruct (wf_nnp (axes d) l L) as (s0 & _ & En). rewrite Ep in En.
    assert (EN : N d = ax_m (axes d) - ax_p (axes d)) by (unfold N, node_size; replace (d <? dim) with true by lia; exact En).
    pose proof Ht as Htc. rewrite in_box_coord in Htc. specialize (Htc d Hd3). unfold zero3 in Htc. rewrite (Hsh d Hd3) in *.
    unfold glob, global_node. rewrite coord_modbox, coord_tadd by auto. fold N.
    set (g := r_gstart (ly_node (LY r) d)) in *. set (w := r_gwidth (ly_node (LY r) d)) in *. set (x := coord t d) in *.
    set (k := ly_coord (LY r) d) in *. set (P := ly_procs (LY r) d) in *. clearbody g w x k P.
    clear - Hs B1 B2 B3 B4 B5 B6 EN Htc. rewrite Z.mod_small by lia. rewrite EN. assert (X : s = 0 \/ s = 1) by lia. apply eq_true_iff_eq. destruct X as [-> | ->].
    - change (0 =? 0) with true. cbv iota. lia.
    - change (1 =? 0) with false. cbv iota. lia. }
  assert (Hfd : forall d s, 0 <= d < dim -> 0 <= s < 2 -> at_face shape atbnd t d s = true -> field d s = map fst (value d s)).
  { intros d s Hd Hs Hat. unfold at_face in Hat. rewrite <- Eat in Hat. rewrite <- Efi.
    destruct ((d <? dim) && negb (ax_periodic (axes d)) && (ly_coord (LY r) d =? (if s =? 0 then 0 else ly_procs (LY r) d - 1))); [reflexivity|discriminate]. }
  assert (HD : (exists d s, 0 <= d < dim /\ 0 <= s < 2 /\ at_face shape atbnd t d s = true /\ In c (field d s)) <-> node_prescribed dim per N value table (glob t) c <> None).
  { rewrite prescribed_iff. split; intros (d & s & Hd & Hs & Hat & Hin); exists d, s.
    - rewrite <- (Hface d s Hd Hs), <- (Hfd d s Hd Hs Hat). auto.
    - rewrite <- (Hface d s Hd Hs) in Hat. rewrite (Hfd d s Hd Hs Hat). auto. }
  destruct H as (H1 & H2). split; [rewrite H1; exact HD|]. rewrite H2. rewrite HD.
  assert (HF : (exists d s, 0 <= d < dim /\ 0 <= s < 2 /\ at_face shape atbnd t d s = true) <-> exists d s, 0 <= d < dim /\ 0 <= s < 2 /\ node_on_face per N (glob t) (d, s) = true).
  { split; intros (d & s & Hd & Hs & Hat); exists d, s; [rewrite <- (Hface d s Hd Hs)|rewrite (Hface d s Hd Hs)]; auto. }
  rewrite HF. destruct (node_prescribed dim per N value table (glob t) c); [|intuition congruence].
  split; [intros (_ & X); exfalso; apply X; discriminate|intros (_ & X); discriminate].
Qed.
Print Assumptions C92_boundary_sets.

(** Lower face of the second direction fixed in component 1 of two: the process at the lower end lists component 1 of its
    face as Dirichlet and component 0 as Neumann. *)
Example C92_example : setup_ok exact_g2 exact_g3 (2^31-1) 6 2 ex_axes [-1;-1] ex_LY /\
  let value := fun d s : Z => if (d =? 1) && (s =? 0) then [(1, 2%R)] else [] in
  (forall d s c v, In (c, v) (value d s) -> 0 <= c < 2) /\
  let '(shape, atbnd, field) := boundary_args 2 ex_axes value (ex_LY 1) in
  bddc_boundary 2 2 shape atbnd field = ((5, [1; 3; 5; 7; 9]), (5, [0; 2; 4; 6; 8])).
Proof.
  split; [exact ex_setup_ok|]. split; [|vm_compute; reflexivity].
  intros d s c v H. destruct ((d =? 1) && (s =? 0)); [|destruct H]. destruct H as [[= <- <-]|[]]. lia.
Qed.

(** * C93 *)
(** Every process names at least one primal vertex, all are nodes of its ghosted box, and over all processes no node of
    the grid is named twice; the corners of a domain without periodic directions are among them. *)
Theorem C93_primal_vertices : forall (O : KnotOrd) g2 g3 maxint size dim (axes : Z -> axis O) user LY,
  setup_ok g2 g3 maxint size dim axes user LY ->
  let per := fun d => ax_periodic (axes d) in let N := node_size dim axes in
  let width := fun r d => r_gwidth (ly_node (LY r) d) in
  let nodes := fun r => map (fun v => global_node N (fun d => r_gstart (ly_node (LY r) d)) (unlin (width r) v)) (primal_vertices dim per (LY r)) in
  (forall r, 0 <= r < size -> primal_vertices dim per (LY r) <> [] /\
     forall v, In v (primal_vertices dim per (LY r)) -> exists t, in_box zero3 (width r) t /\ v = lin (width r) t) /\
  NoDup (flat_map nodes (zseq 0 size)) /\
  ((forall d, 0 <= d < dim -> per d = false) ->
   forall hi : Z -> bool, In (if hi 0 then N 0 - 1 else 0, if hi 1 then N 1 - 1 else 0, if hi 2 then N 2 - 1 else 0) (flat_map nodes (zseq 0 size))).
Proof.
  intros O g2 g3 maxint size dim axes user LY S per N width nodes. split; [|split].
  - intros r Hr. split; [apply (primal_nonempty g2 g3 maxint size dim axes user LY S r Hr)|].
    intros v Hv. destruct (pr_hyps g2 g3 maxint size dim axes user LY S r Hr) as (H1 & H2 & H3).
    apply (in_primal dim per (LY r) (pr_dims g2 g3 maxint size dim axes user LY S) H1 H2 H3) in Hv. destruct Hv as (i & j & k & A0 & A1 & A2 & ->).
    exists (primal_node dim (LY r) i j k). split; [|reflexivity]. apply (primal_in_box dim per (LY r) H1 H2 H3 i j k A0 A1 A2).
  - apply (primal_global_NoDup g2 g3 maxint size dim axes user LY S).
  - intros Hper hi. apply (primal_corners g2 g3 maxint size dim axes user LY S hi Hper).
Qed.
Print Assumptions C93_primal_vertices.

(** The six processes of the example name nine nodes: the second direction has a lower end, the first is periodic. *)
Example C93_example : setup_ok exact_g2 exact_g3 (2^31-1) 6 2 ex_axes [-1;-1] ex_LY /\
  map (fun r => map (fun v => global_node (node_size 2 ex_axes) (fun d => r_gstart (ly_node (ex_LY r) d)) (unlin (fun d => r_gwidth (ly_node (ex_LY r) d)) v))
     (primal_vertices 2 (fun d => ax_periodic (ex_axes d)) (ex_LY r))) (zseq 0 6) =
  [[(3,0,0); (3,3,0)]; [(6,0,0); (6,3,0)]; [(0,0,0); (0,3,0)]; [(3,6,0)]; [(6,6,0)]; [(0,6,0)]].
Proof. split; [exact ex_setup_ok|]. vm_compute. reflexivity. Qed.
