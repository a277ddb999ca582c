(** C130: the storage reserved for the matrix of the basis-by-basis preconditioner. *)
From Coq Require Import ZArith List Bool Lia.
From Coq Require Import ZifyBool ZifyNat.
From Verif Require Import Prelude AxisModel AxisSpec AxisInitModel AxisProofs PartModel PartSpec PartProofs SetupModel SetupProofs SetupProps
  Box GridModel GridSpec GridProofs GridSetup GridProps MatModel SolvModel SolvProofs SolvProps PcModel BpModel BpSpec BpProofs.
Import ListNotations.
Open Scope Z_scope.

Lemma blocks_of_rank size G dim dof ov nd r :
  bbb_blocks size G dim dof ov nd [r] = map (bbb_block size G dim dof ov nd r) (box (gr_lstart (G r)) (gr_lwidth (G r))).
Proof. unfold bbb_blocks. cbn [flat_map]. apply app_nil_r. Qed.

(** The entries PCSetUp_BBB adds on a process fit into the rows of an "aij" matrix: no further allocation (which
    MAT_NEW_NONZERO_ALLOCATION_ERR would turn into an error) is needed, and no column of another process occurs. *)
Theorem C130_entries_fit :
  forall {O : KnotOrd} g2 g3 maxint size dim (axes : Z -> axis O) user LY dof, setup_ok g2 g3 maxint size dim axes user LY -> 1 <= dof ->
  let G r := grid_of dof (ly_node (LY r)) in
  forall req r, let ov d := bbb_overlap (ax_p (axes d)) (req d) in
  0 <= r < size ->
  let blocks := bbb_blocks size G dim dof ov (fun r => ly_node (LY r)) [r] in
  forall i, room (bbb_dnnz_aij dim dof ov) (bbb_onnz_aij dof) (dof * off G r) (dof * off G (r+1)) (written blocks i) /\
    ((exists j, written blocks i j) -> dof * off G r <= i < dof * off G (r+1)).
Proof.
  intros O g2 g3 maxint size dim axes user LY dof S Hdof G req r ov Hr blocks i.
  destruct (bbb_hyps g2 g3 maxint size dim axes user LY dof S Hdof req) as (W & H1 & H2 & H3). fold ov in H2.
  pose proof (fun d Hd => proj1 (H2 d Hd)) as H2'.
  assert (OW : forall b x, In b blocks -> In x b -> dof * off G r <= x < dof * off G (r+1)).
  { intros b x Hb Hx. unfold blocks in Hb. rewrite blocks_of_rank in Hb. apply in_map_iff in Hb. destruct Hb as (t & <- & _).
    apply (block_owned size dof dim (node_size dim axes) (fun r => ly_node (LY r)) ov W H1 H2' H3 r Hr t x Hx). }
  split; [split|].
  - intros L HN HL. unfold blocks in HL. rewrite blocks_of_rank in HL.
    apply (entries_bound size dof dim (node_size dim axes) (fun r => ly_node (LY r)) ov W H1 H2' H3 r Hr (box (gr_lstart (G r)) (gr_lwidth (G r))) i L HN).
    intros x Hx. apply (proj1 (HL x Hx)).
  - unfold bbb_onnz_aij, bbb_onnz. apply at_most_none. intros j [(b & Hb & _ & Hj) Q]. apply Q, (OW b j Hb Hj).
  - intros (j & b & Hb & Hi & _). apply (OW b i Hb Hi).
Qed.
Print Assumptions C130_entries_fit.

(** The same in tiles, for the block formats "baij": the rows of tiles hold dnnz tiles. *)
Theorem C130_tiles_fit :
  forall {O : KnotOrd} g2 g3 maxint size dim (axes : Z -> axis O) user LY dof, setup_ok g2 g3 maxint size dim axes user LY -> 1 <= dof ->
  let G r := grid_of dof (ly_node (LY r)) in
  forall req r, let ov d := bbb_overlap (ax_p (axes d)) (req d) in
  0 <= r < size ->
  let blocks := bbb_blocks size G dim dof ov (fun r => ly_node (LY r)) [r] in
  forall I, room (bbb_dnnz dim ov) bbb_onnz (off G r) (off G (r+1)) (tile_written dof blocks I).
Proof.
  intros O g2 g3 maxint size dim axes user LY dof S Hdof G req r ov Hr blocks I.
  destruct (bbb_hyps g2 g3 maxint size dim axes user LY dof S Hdof req) as (W & H1 & H2 & H3). fold ov in H2.
  pose proof (fun d Hd => proj1 (H2 d Hd)) as H2'. split.
  - intros L HN HL. unfold blocks in HL. rewrite blocks_of_rank in HL.
    apply (tiles_bound size dof dim (node_size dim axes) (fun r => ly_node (LY r)) ov W H1 H2' H3 r Hr (box (gr_lstart (G r)) (gr_lwidth (G r))) I L HN).
    intros x Hx. apply (proj1 (HL x Hx)).
  - unfold bbb_onnz. apply at_most_none. intros J [(i & j & (b & Hb & _ & Hj) & _ & <-) Q]. apply Q. clear Q.
    unfold blocks in Hb. rewrite blocks_of_rank in Hb. apply in_map_iff in Hb. destruct Hb as (t & <- & _).
    assert (B : dof * off G r <= j < dof * off G (r+1)) by apply (block_owned size dof dim (node_size dim axes) (fun r => ly_node (LY r)) ov W H1 H2' H3 r Hr t j Hj).
    revert B Hdof. generalize (off G r) (off G (r+1)). clear. intros a b [B1 B2] Hdof.
    split; [apply Z.div_le_lower_bound; lia|apply Z.div_lt_upper_bound; lia].
Qed.
Print Assumptions C130_tiles_fit.

(** Five quadratic elements on one process, two components. *)
Definition bp_axis : axis Zord := ex_axis false 9 [0;0;0;1;2;3;4;5;5;5].
Definition bp_LY (r : Z) : layout := layout_of 1 (fun _ => bp_axis) [1] (rank_coords [1] r).
Lemma bp_setup_ok : setup_ok exact_g2 exact_g3 (2^31-1) 1 1 (fun _ => bp_axis) [-1] bp_LY.
Proof.
  destruct ex_setup_ok as (H2 & H3 & _). split; [exact H2|]. split; [exact H3|]. split; [lia|]. split.
  - intros i _. split; [|split; reflexivity].
    apply (set_knots_wf (@mk_axis Zord false 2 1 (fun _ => 0) 1 1 (Some [0])) _ 9 (arr 0 [0;0;0;1;2;3;4;5;5;5])). reflexivity.
  - intros r Hr. replace r with 0 by lia. unfold stage1, bp_LY.
    match goal with |- context [partition ?a ?b ?c ?d ?r ?e ?f] =>
      let v := eval vm_compute in (partition a b c d r e f) in
      assert (E : partition a b c d r e f = v) by (vm_compute; reflexivity); rewrite E end; reflexivity.
Qed.

(** The reserve cannot be made smaller: here a row fills it. *)
Theorem C130_sharp :
  exists (axes : Z -> axis Zord) LY dof req i, setup_ok exact_g2 exact_g3 (2^31-1) 1 1 axes [-1] LY /\ 1 < dof /\
  let G r := grid_of dof (ly_node (LY r)) in let ov d := bbb_overlap (ax_p (axes d)) (req d) in
  0 < ov 0 /\
  exists L, NoDup L /\ (forall j, In j L -> written (bbb_blocks 1 G 1 dof ov (fun r => ly_node (LY r)) [0]) i j) /\
    Z.of_nat (length L) = bbb_dnnz_aij 1 dof ov.
Proof.
  exists (fun _ => bp_axis), bp_LY, 2, (fun _ => -1), 6. split; [exact bp_setup_ok|]. split; [lia|]. intros G ov. split; [reflexivity|].
  exists (zseq 2 10). split; [apply NoDup_zseq|]. split; [|reflexivity].
  assert (E : bbb_blocks 1 G 1 2 ov (fun r => ly_node (bp_LY r)) [0] =
    [zseq 0 4; zseq 0 6; zseq 2 6; zseq 4 6; zseq 6 6; zseq 8 6; zseq 10 4]) by (vm_compute; reflexivity).
  rewrite E. intros j Hj. apply in_zseq in Hj.
  destruct (Z_lt_dec j 8).
  - exists (zseq 2 6). split; [right; right; left; reflexivity|]. split; apply in_zseq; lia.
  - exists (zseq 6 6). split; [right; right; right; right; left; reflexivity|]. split; apply in_zseq; lia.
Qed.
Print Assumptions C130_sharp.

(** The hypotheses of the first two theorems hold for this space and for the six processes of C12's example (one
    periodic direction), with these reserves. *)
Example C130_example :
  setup_ok exact_g2 exact_g3 (2^31-1) 1 1 (fun _ => bp_axis) [-1] bp_LY /\ setup_ok exact_g2 exact_g3 (2^31-1) 6 2 ex_axes [-1;-1] ex_LY /\
  bbb_dnnz_aij 1 2 (fun d => bbb_overlap (ax_p bp_axis) (-1)) = 10 /\ bbb_dnnz_aij 2 3 (fun d => bbb_overlap (ax_p (ex_axes d)) 7) = 243.
Proof. split; [exact bp_setup_ok|]. split; [exact ex_setup_ok|]. split; reflexivity. Qed.
