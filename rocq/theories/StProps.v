(** C132: the overlap of the basis-by-basis preconditioner over its life. *)
From Coq Require Import ZArith List Bool Lia.
From Coq Require Import ZifyBool ZifyNat.
From Verif Require Import Prelude AxisModel AxisSpec AxisInitModel AxisProofs PartModel PartSpec PartProofs SetupModel SetupProofs SetupProps
  Box GridModel GridSpec GridProofs GridSetup GridProps MatModel SolvModel SolvProofs SolvProps PcModel BpModel BpSpec BpProofs BpProps StModel StSpec.
Import ListNotations.
Open Scope Z_scope.

Lemma options_called reads s : st_called (fold_left (fun s g => bbb_options g s) reads s) = st_called s.
Proof. revert s. induction reads as [|[l|] reads IH]; intros s; [reflexivity| |]; cbn [fold_left]; rewrite IH; reflexivity. Qed.

Lemma options_overlap reads s d : 0 <= d < 3 -> (forall l, In (Some l) reads -> (1 <= length l <= 3)%nat) ->
  forall a, (match a with Some v => st_overlap s d = v | None => st_overlap s d = -1 end) ->
  match fold_left (fun acc g => match g with Some l => Some (given_for l d) | None => acc end) reads a with
  | Some v => st_overlap (fold_left (fun s g => bbb_options g s) reads s) d = v
  | None => st_overlap (fold_left (fun s g => bbb_options g s) reads s) d = -1 end.
Proof.
  intros Hd. revert s. induction reads as [|g reads IH]; intros s Hl a Ha; [exact Ha|]. cbn [fold_left]. apply IH; [intros l H; apply Hl; right; exact H|].
  destruct g as [l|]; [|exact Ha]. specialize (Hl l (or_introl eq_refl)). unfold bbb_options, given_for. cbn [st_overlap].
  destruct l as [|v l]; [cbn in Hl; lia|]. replace (0 <? Z.min (Z.of_nat (length (v :: l))) 3) with true by (symmetry; cbn [length]; lia).
  destruct (d <? _) eqn:E; [apply nth_indep; lia|]. symmetry. apply nth_overflow. lia.
Qed.

(** However often the options are read before, the first set-up uses the overlap asked for, in every direction of the
    space, and reserves accordingly. *)
Theorem C132_first_setup : forall reads dim dof p same, 1 <= dim <= 3 -> (forall l, In (Some l) reads -> (1 <= length l <= 3)%nat) ->
  let s := bbb_setup dim dof p same (fold_left (fun s g => bbb_options g s) reads bbb_create) in
  (forall d, 0 <= d < dim -> proper_overlap (p d) (asked reads d) (st_overlap s d)) /\
  (forall d, dim <= d < 3 -> st_overlap s d = 0) /\
  (forall d, st_fit s d = st_overlap s d) /\ st_mat s = Some (bbb_dnnz_aij dim dof (st_overlap s)).
Proof.
  intros reads dim dof p same Hdim Hl s. unfold s, bbb_setup. rewrite options_called. cbn [bbb_create st_called st_overlap st_fit st_mat].
  rewrite andb_false_r. cbn [negb]. split; [|split; [|split; reflexivity]].
  - intros d Hd. replace (d <? dim) with true by lia.
    pose proof (options_overlap reads bbb_create d ltac:(lia) Hl None eq_refl) as H. unfold asked.
    destruct (fold_left _ reads None) as [v|]; rewrite H; unfold proper_overlap, bbb_overlap.
    + split; intros K; destruct (v <? 0) eqn:E; lia.
    + reflexivity.
  - intros d Hd. replace (d <? dim) with false by lia. reflexivity.
Qed.
Print Assumptions C132_first_setup.

(** As long as the options are not read again, further set-ups change nothing, whether or not the structure of the
    matrix changes. *)
Theorem C132_further_setups : forall s dim dof p same flags,
  let s1 := bbb_setup dim dof p same (mk_state s false (fun _ => 0) None) in
  fold_left (fun s same => bbb_setup dim dof p same s) flags s1 = s1.
Proof.
  intros s dim dof p same flags s1. induction flags as [|f flags IH]; [reflexivity|]. cbn [fold_left].
  replace (bbb_setup dim dof p f s1) with s1; [exact IH|].
  unfold s1, bbb_setup. cbn [st_called st_overlap st_fit st_mat]. rewrite andb_false_r, andb_true_r. cbn [negb]. destruct f; reflexivity.
Qed.
Print Assumptions C132_further_setups.

(** Eight quadratic elements on one process. *)
Definition st_axis : axis Zord := ex_axis false 12 [0;0;0;1;2;3;4;5;6;7;8;8;8].
Definition st_LY (r : Z) : layout := layout_of 1 (fun _ => st_axis) [1] (rank_coords [1] r).
Lemma st_setup_ok : setup_ok exact_g2 exact_g3 (2^31-1) 1 1 (fun _ => st_axis) [-1] st_LY.
Proof.
  destruct ex_setup_ok as (H2 & H3 & _). split; [exact H2|]. split; [exact H3|]. split; [lia|]. split.
  - intros i _. split; [|split; reflexivity].
    apply (set_knots_wf (@mk_axis Zord false 2 1 (fun _ => 0) 1 1 (Some [0])) _ 12 (arr 0 [0;0;0;1;2;3;4;5;6;7;8;8;8])). reflexivity.
  - intros r Hr. replace r with 0 by lia. unfold stage1, st_LY.
    match goal with |- context [partition ?a ?b ?c ?d ?r ?e ?f] =>
      let v := eval vm_compute in (partition a b c d r e f) in
      assert (E : partition a b c d r e f = v) by (vm_compute; reflexivity); rewrite E end; reflexivity.
Qed.

(** Reading the same option again between two set-ups with the same structure: the overlap is larger than the degree and
    a row gets more entries than the matrix, which is kept, has room for. *)
Theorem C132_options_again_refuted :
  exists (axes : Z -> axis Zord) LY given i, setup_ok exact_g2 exact_g3 (2^31-1) 1 1 axes [-1] LY /\
  let p d := ax_p (axes d) in
  let s1 := bbb_setup 1 1 p false (bbb_options (Some [given]) bbb_create) in
  let s2 := bbb_setup 1 1 p true (bbb_options (Some [given]) s1) in
  p 0 < st_overlap s2 0 /\ st_overlap s1 0 = p 0 /\
  exists n L, st_mat s2 = Some n /\ NoDup L /\ n < Z.of_nat (length L) /\
    forall j, In j L -> written (state_blocks 1 (fun r => grid_of 1 (ly_node (LY r))) 1 1 (fun r => ly_node (LY r)) s2 0) i j.
Proof.
  exists (fun _ => st_axis), st_LY, 3, 4. split; [exact st_setup_ok|]. intros p s1 s2. split; [reflexivity|]. split; [reflexivity|].
  exists 9, (zseq 0 10). split; [reflexivity|]. split; [apply NoDup_zseq|]. split; [reflexivity|].
  assert (E : state_blocks 1 (fun r => grid_of 1 (ly_node (st_LY r))) 1 1 (fun r => ly_node (st_LY r)) s2 0 =
    [zseq 0 4; zseq 0 5; zseq 0 6; zseq 0 7; zseq 1 7; zseq 2 7; zseq 3 7; zseq 4 6; zseq 5 5; zseq 6 4]) by (vm_compute; reflexivity).
  rewrite E. intros j Hj. apply in_zseq in Hj.
  destruct (Z_lt_dec j 7).
  - exists (zseq 0 7). split; [do 3 right; left; reflexivity|]. split; apply in_zseq; lia.
  - exists (zseq 3 7). split; [do 6 right; left; reflexivity|]. split; apply in_zseq; lia.
Qed.
Print Assumptions C132_options_again_refuted.

(** After a reset nobody has asked for an overlap, but the one of the first space stays: with degree 4 in two directions
    it is 1 and 0 in place of 2 and 2. *)
Theorem C132_reuse_refuted :
  exists p p' d, 0 <= d < 2 /\
  let s1 := bbb_setup 1 1 p false (bbb_options None bbb_create) in
  let s2 := bbb_setup 2 1 p' false (bbb_options None (bbb_reset s1)) in
  proper_overlap (p 0) (asked [None] 0) (st_overlap s1 0) /\
  ~ proper_overlap (p' d) (asked [None; None] d) (st_overlap s2 d) /\ st_overlap s2 0 = 1 /\ st_overlap s2 1 = 0.
Proof.
  exists (fun _ => 2), (fun _ => 4), 1. split; [lia|]. intros s1 s2. split; [reflexivity|]. split; [|split; reflexivity].
  unfold proper_overlap, asked. cbn [fold_left]. vm_compute. discriminate.
Qed.
Print Assumptions C132_reuse_refuted.

(** The option given twice, the second time with two values. *)
Example C132_example : let reads := [Some [5]; None; Some [1; -1]] in
  (forall l, In (Some l) reads -> (1 <= length l <= 3)%nat) /\ map (asked reads) [0; 1; 2] = [Some 1; Some (-1); Some 1] /\
  let s := bbb_setup 3 2 (fun d => 2 + d) true (fold_left (fun s g => bbb_options g s) reads bbb_create) in
  map (st_overlap s) [0; 1; 2] = [1; 1; 1] /\ st_mat s = Some 250.
Proof.
  intros reads. split; [|vm_compute; auto]. intros l [E|[E|[E|[]]]]; try discriminate; injection E as <-; cbn; lia.
Qed.
(** The blocks in the state after a first set-up are those of C46 and C130. *)
Lemma overlap_ext lg bs a b gs gw ov ov' t : (forall d, 0 <= d < 3 -> ov d = ov' d) -> compute_overlap lg bs a b gs gw ov t = compute_overlap lg bs a b gs gw ov' t.
Proof. intros H. unfold compute_overlap. cbv zeta. rewrite (H 0), (H 1), (H 2) by lia. reflexivity. Qed.
Theorem C132_first_blocks : forall size G dim dof nd p same reads r,
  let s := bbb_setup dim dof p same (fold_left (fun s g => bbb_options g s) reads bbb_create) in
  state_blocks size G dim dof nd s r = bbb_blocks size G dim dof (st_overlap s) nd [r].
Proof.
  intros size G dim dof nd p same reads r s. unfold state_blocks, bbb_blocks. cbn [flat_map]. rewrite app_nil_r. apply map_ext. intros t.
  unfold bbb_block_in, bbb_block. unfold s, bbb_setup. rewrite options_called. cbn [bbb_create st_called st_overlap st_fit].
  apply overlap_ext. intros d _. cbv beta. destruct (d <? dim); reflexivity.
Qed.
Print Assumptions C132_first_blocks.
