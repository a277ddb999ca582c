(** C88, C89: the preconditioners "ebe" and "bbb". *)
From Coq Require Import ZArith List Bool Lia Reals Lra Permutation.
From Coq Require Import ZifyBool ZifyNat.
From Verif Require Import Prelude AxisModel AxisSpec AxisInitModel AxisProofs PartModel PartSpec PartProofs SetupModel SetupProofs SetupProps
  Box GridModel GridSpec GridProofs GridSetup GridProps ElemModel ElemSpec ElemProofs AsmProofs ElemProps SolvModel SolvProofs SolvProps PcModel PcSpec PcProofs PcProofs2.
Import ListNotations.
Open Scope Z_scope.

(** * C88 *)
(** When the set-up of "ebe" succeeds, its matrix is the sum over all elements of the inverses of the blocks of A that
    belong to the unknowns of the element owned by the process of the element. *)
Theorem C88_sum_of_element_inverses :
  forall (O : KnotOrd) g2 g3 maxint size dim (axes : Z -> axis O) user (LY : Z -> layout) dof (e0 : Z -> elem) (sizes : Z -> Z -> Z),
  setup_ok g2 g3 maxint size dim axes user LY -> 1 <= dof ->
  let G := fun r => grid_of dof (ly_node (LY r)) in
  let N := fun d => if d <? dim then ax_nnp (axes d) else 1 in
  let nen := fun d => if d <? dim then ax_p (axes d) + 1 else 1 in
  let first := fun e d => if d <? dim then span_at (axes d) (coord e d) - ax_p (axes d) else 0 in
  let elems := fun r => rank_elements (e0 r) dim (ly_elem_start (LY r)) (ly_elem_width (LY r)) (sizes r) in
  let mapping := fun r e => closure (elem_off dim axes e) (basis_nen dim axes) (gr_gstart (G r)) (gr_gwidth (G r)) in
  let n := dof * (N 0 * (N 1 * N 2)) in
  forall lapack A B order, inverts lapack -> Permutation order (zseq 0 size) ->
  pc_ebe lapack size G dof elems mapping order A = Some B ->
  sum_of_inverses n A B
    (flat_map (fun r => map (fun e =>
       element_unknowns (in_boxb (gr_lstart (G r)) (gr_lwidth (G r))) (fun t => ao size G (lin N t)) dof
         (map (fun a => modbox N (tadd (first e) a)) (box zero3 nen)))
       (box (ly_elem_start (LY r)) (ly_elem_width (LY r)))) order).
Proof.
  intros O g2 g3 maxint size dim axes user LY dof e0 sizes S Hdof G N nen first elems mapping n lapack A B order HL Ho HB.
  assert (Hord : forall r, In r order -> 0 <= r < size) by (intros r Hr; apply (Permutation_in _ Ho) in Hr; apply in_zseq in Hr; lia).
  unfold pc_ebe in HB. pose proof (ebe_blocks_form g2 g3 maxint size dim axes user LY dof S Hdof e0 sizes order Hord) as EB.
  fold G in EB. fold elems in EB. fold mapping in EB. rewrite EB in HB. clear EB.
  match goal with |- sum_of_inverses _ _ _ ?b => assert (EQ : spec_blocks size dim axes LY dof order = b) end.
  { unfold spec_blocks. rewrite !flat_map_concat_map. f_equal. apply map_ext. intros r. apply map_ext. intros e.
    unfold element_unknowns. f_equal. apply map_ext. intros [[i j] k]. unfold elem_node, tadd. rewrite !elem_off_coord by lia. reflexivity. }
  rewrite <- EQ. apply setup_formula with (invert := ebe_invert lapack); auto.
  - intros l x Hl Hx. unfold spec_blocks in Hl. apply in_flat_map in Hl. destruct Hl as (r & Hr & Hl). apply in_map_iff in Hl. destruct Hl as (e & <- & He).
    exact (blk_range g2 g3 maxint size dim axes user LY dof S Hdof r e x Hx).
  - intros l _ HN. apply ebe_inverse; auto.
Qed.
Print Assumptions C88_sum_of_element_inverses.

(** If every direction has at least p+1 basis functions (always so when it is not periodic) and A is symmetric positive
    definite, the set-up succeeds on any number of processes and its matrix is symmetric positive definite. *)
Theorem C88_positive_definite :
  forall (O : KnotOrd) g2 g3 maxint size dim (axes : Z -> axis O) user (LY : Z -> layout) dof (e0 : Z -> elem) (sizes : Z -> Z -> Z),
  setup_ok g2 g3 maxint size dim axes user LY -> 1 <= dof ->
  (forall d, 0 <= d < dim -> ax_periodic (axes d) = true -> ax_p (axes d) + 1 <= ax_nnp (axes d)) ->
  let G := fun r => grid_of dof (ly_node (LY r)) in
  let N := fun d => if d <? dim then ax_nnp (axes d) else 1 in
  let elems := fun r => rank_elements (e0 r) dim (ly_elem_start (LY r)) (ly_elem_width (LY r)) (sizes r) in
  let mapping := fun r e => closure (elem_off dim axes e) (basis_nen dim axes) (gr_gstart (G r)) (gr_gwidth (G r)) in
  let n := dof * (N 0 * (N 1 * N 2)) in
  forall lapack A order, inverts lapack -> Permutation order (zseq 0 size) -> spd n A ->
  exists B, pc_ebe lapack size G dof elems mapping order A = Some B /\ spd n B.
Proof.
  intros O g2 g3 maxint size dim axes user LY dof e0 sizes S Hdof HS G N elems mapping n lapack A order HL Ho HA.
  assert (Hord : forall r, In r order -> 0 <= r < size) by (intros r Hr; apply (Permutation_in _ Ho) in Hr; apply in_zseq in Hr; lia).
  assert (HS' : forall d, 0 <= d < dim -> ax_p (axes d) + 1 <= ax_nnp (axes d)).
  { intros d Hd. specialize (HS d Hd). destruct (setup_wf _ _ _ _ _ _ _ _ S d Hd) as (l & L & _). destruct (wf_nnp _ l L) as (s & Hs & Hn).
    destruct L as (_ & (Hp & Hm & _) & _). destruct (ax_periodic (axes d)); [auto|]. lia. }
  set (blocks := spec_blocks size dim axes LY dof order).
  assert (HF : forall l, In l blocks -> (exists r e, 0 <= r < size /\ In e (box (ly_elem_start (LY r)) (ly_elem_width (LY r))) /\
     l = element_unknowns (in_boxb (gr_lstart (G r)) (gr_lwidth (G r))) (fun t => ao size G (lin N t)) dof (map (elem_node N (elem_off dim axes) e) (box zero3 (basis_nen dim axes))))).
  { intros l Hl. unfold blocks, spec_blocks in Hl. apply in_flat_map in Hl. destruct Hl as (r & Hr & Hl). apply in_map_iff in Hl. destruct Hl as (e & <- & He).
    exists r, e. repeat split; auto; apply Hord; auto. }
  assert (Hin : forall l x, In l blocks -> In x l -> 0 <= x < n).
  { intros l x Hl Hx. destruct (HF l Hl) as (r & e & Hr & He & ->). exact (blk_range g2 g3 maxint size dim axes user LY dof S Hdof r e x Hx). }
  assert (HND : forall l, In l blocks -> NoDup l).
  { intros l Hl. destruct (HF l Hl) as (r & e & Hr & He & ->). exact (blk_nodup g2 g3 maxint size dim axes user LY dof S Hdof r e HS'). }
  assert (HSP : forall l, In l blocks -> ebe_invert lapack (len l) (mat_get_values A l) <> None).
  { intros l Hl. apply ebe_succeeds; auto.
    - destruct (HF l Hl) as (r & e & Hr & He & ->). exact (blk_nonempty g2 g3 maxint size dim axes user LY dof S Hdof r e Hr He).
    - apply (restrict_spd n); auto. intros x Hx. apply (Hin l x Hl Hx). }
  pose proof (ebe_blocks_form g2 g3 maxint size dim axes user LY dof S Hdof e0 sizes order Hord) as EB. fold G in EB. fold elems in EB. fold mapping in EB. fold blocks in EB.
  destruct (fold_succeeds (ebe_invert lapack) A blocks HSP (fun _ _ => 0%R)) as (B & HB). exists B. unfold pc_ebe. rewrite EB. split; [exact HB|].
  apply (sum_spd n A B blocks); auto.
  - apply setup_formula with (invert := ebe_invert lapack); auto. intros l _ HN. apply ebe_inverse; auto.
  - intros i j. apply qform_unit.
  - intros i Hi. destruct (blk_cover g2 g3 maxint size dim axes user LY dof S Hdof i Hi) as (r & e & Hr & He & Hx).
    eexists. split; [|exact Hx]. unfold blocks, spec_blocks. apply in_flat_map. exists r. split.
    + apply (Permutation_in _ (Permutation_sym Ho)), in_zseq. lia.
    + apply in_map_iff. exists e. split; [reflexivity|exact He].
Qed.
Print Assumptions C88_positive_definite.

(** A block that lists an unknown twice has two equal rows. *)
Lemma repeated_no_inverse l A X : inverse_of (len l) (restrict l A) X -> NoDup l.
Proof.
  intros H. apply (NoDup_nth l 0). intros i j Hi Hj E. destruct (Nat.eq_dec i j) as [|D]; auto. exfalso.
  destruct (H (Z.of_nat i) (Z.of_nat i)) as [H1 _]; [unfold len; lia|unfold len; lia|]. destruct (H (Z.of_nat j) (Z.of_nat i)) as [H2 _]; [unfold len; lia|unfold len; lia|].
  rewrite Z.eqb_refl in H1. replace (Z.of_nat j =? Z.of_nat i) with false in H2 by lia. unfold restrict, at_ in H1, H2. rewrite Nat2Z.id in H1, H2. rewrite E in H1. lra.
Qed.
Lemma NoDup_flat_map_inv {A B} (f : A -> list B) l : (forall x, In x l -> f x <> []) -> NoDup (flat_map f l) -> NoDup l.
Proof.
  induction l as [|a l IH]; intros Hf HN; constructor; cbn [flat_map] in HN.
  - intros Ha. destruct (f a) as [|b fb] eqn:E; [apply (Hf a); [left; auto|auto]|]. cbn [app] in HN. inversion HN; subst. apply H1.
    apply in_or_app. right. apply in_flat_map. exists a. split; auto. rewrite E. left; auto.
  - apply IH; [intros; apply Hf; right; auto|]. clear - HN. induction (f a) as [|b fb IH]; cbn [app] in HN; auto. inversion HN; auto.
Qed.
Lemma NoDup_map_inj {A B} (g : A -> B) l : NoDup (map g l) -> forall x y, In x l -> In y l -> g x = g y -> x = y.
Proof.
  induction l as [|a l IH]; intros HN x y Hx Hy E; [destruct Hx|]. cbn [map] in HN. inversion HN; subst.
  destruct Hx as [<-|Hx], Hy as [<-|Hy]; auto; exfalso; apply H1; [rewrite E|rewrite <- E]; apply in_map; auto.
Qed.

(** On one process, if a periodic direction has fewer than p+1 basis functions, the set-up fails whatever A is. *)
Theorem C88_few_periodic_functions :
  forall (O : KnotOrd) g2 g3 maxint dim (axes : Z -> axis O) user (LY : Z -> layout) dof (e0 : Z -> elem) (sizes : Z -> Z -> Z),
  setup_ok g2 g3 maxint 1 dim axes user LY -> 1 <= dof ->
  (exists d, 0 <= d < dim /\ ax_nnp (axes d) < ax_p (axes d) + 1) ->
  let G := fun r => grid_of dof (ly_node (LY r)) in
  let elems := fun r => rank_elements (e0 r) dim (ly_elem_start (LY r)) (ly_elem_width (LY r)) (sizes r) in
  let mapping := fun r e => closure (elem_off dim axes e) (basis_nen dim axes) (gr_gstart (G r)) (gr_gwidth (G r)) in
  forall lapack A, inverts lapack -> pc_ebe lapack 1 G dof elems mapping [0] A = None.
Proof.
  intros O g2 g3 maxint dim axes user LY dof e0 sizes S Hdof (d & Hd & Hsmall) G elems mapping lapack A HL.
  destruct (pc_ebe lapack 1 G dof elems mapping [0] A) as [B|] eqn:HB; [exfalso|reflexivity].
  set (N := node_size dim axes).
  unfold pc_ebe in HB. pose proof (ebe_blocks_form g2 g3 maxint 1 dim axes user LY dof S Hdof e0 sizes [0] ltac:(intros r [<-|[]]; lia)) as EB.
  fold G in EB. fold elems in EB. fold mapping in EB. rewrite EB in HB. clear EB.
  destruct (fold_blocks (ebe_invert lapack) A _ _ _ HB) as [HV _].
  pose proof (pc_world g2 g3 maxint 1 dim axes user LY dof S Hdof) as W. fold G in W. fold N in W.
  destruct (setup_form _ _ _ _ _ _ _ _ S) as (n & Hn & HLn & Hdim & Hz & HP & HLY).
  (* an element *)
  pose proof (setup_elem_tile _ _ _ _ _ _ _ _ S) as HT.
  assert (HE : exists e, In e (box (ly_elem_start (LY 0)) (ly_elem_width (LY 0)))).
  { assert (HN1 : 0 <= 0 < dof * (N 0 * (N 1 * N 2))).
    { pose proof (pc_Npos g2 g3 maxint 1 dim axes user LY dof S 0 ltac:(lia)). pose proof (pc_Npos g2 g3 maxint 1 dim axes user LY dof S 1 ltac:(lia)). pose proof (pc_Npos g2 g3 maxint 1 dim axes user LY dof S 2 ltac:(lia)). split; [lia|]. repeat apply Z.mul_pos_pos; unfold N; lia. }
    destruct (blk_cover g2 g3 maxint 1 dim axes user LY dof S Hdof 0 HN1) as (r & e & Hr & He & _). exists e. replace 0 with r by lia. exact He. }
  destruct HE as (e & He).
  set (bl := element_unknowns (in_boxb (gr_lstart (G 0)) (gr_lwidth (G 0))) (fun t => ao 1 G (lin N t)) dof (map (elem_node N (elem_off dim axes) e) (box zero3 (basis_nen dim axes)))).
  assert (Hbl : In bl (spec_blocks 1 dim axes LY dof [0])).
  { unfold spec_blocks. cbn [flat_map]. rewrite app_nil_r. apply in_map_iff. exists e. split; [reflexivity|exact He]. }
  pose proof (HV bl Hbl) as HI. assert (HND : NoDup bl).
  { apply (repeated_no_inverse bl A (blockm (ebe_invert lapack) A bl)). apply ebe_inverse; auto. rewrite HI. discriminate. }
  (* all nodes are owned *)
  assert (Hown : forall t, in_box zero3 N t -> in_boxb (gr_lstart (G 0)) (gr_lwidth (G 0)) t = true).
  { intros t Ht. pose proof (C15_numbering_is_permutation 1 dof N G W) as (H1 & _ & _ & O0 & OS & _ & HO & _). apply in_boxb_spec, HO; auto; [lia|].
    change (0 + 1) with 1. rewrite O0, OS. apply (H1 t Ht). }
  assert (HMN : NoDup (map (elem_node N (elem_off dim axes) e) (box zero3 (basis_nen dim axes)))).
  { unfold bl, element_unknowns in HND. revert HND. apply NoDup_flat_map_inv. intros t Ht. apply in_map_iff in Ht. destruct Ht as (a & <- & _).
    rewrite Hown by apply (modbox_in _ _ _ _ W). destruct dof; try lia. cbn. rewrite zseq_cons by lia. discriminate. }
  (* two equal nodes *)
  set (a := tri (fun _ => 0)). set (b := tri (fun i => if i =? d then N d else 0)).
  assert (Nd : 1 <= N d) by (apply (pc_Npos g2 g3 maxint 1 dim axes user LY dof S d); lia).
  assert (ENd : N d = ax_nnp (axes d)) by (unfold N, node_size; replace (d <? dim) with true by lia; reflexivity).
  assert (Hnen : forall i, 0 <= i < 3 -> 1 <= basis_nen dim axes i).
  { intros i Hi. unfold basis_nen. destruct (i <? dim) eqn:E; [|lia]. destruct (setup_wf _ _ _ _ _ _ _ _ S i ltac:(lia)) as (l & (_ & (Hp & _) & _) & _). lia. }
  assert (Eab : a = b).
  { apply (NoDup_map_inj _ _ HMN).
    - apply In_box, in_box_coord. intros i Hi. unfold a. rewrite coord_tri by auto. specialize (Hnen i Hi). unfold zero3. lia.
    - apply In_box, in_box_coord. intros i Hi. unfold b. rewrite coord_tri by auto. specialize (Hnen i Hi). unfold zero3. destruct (i =? d) eqn:E; [|lia].
      apply Z.eqb_eq in E. subst i. unfold basis_nen. replace (d <? dim) with true by lia. lia.
    - apply tri_ext. intros i Hi. unfold elem_node. rewrite !coord_modbox, !coord_tadd by auto. unfold a, b. rewrite !coord_tri by auto. rewrite Z.add_0_r.
      destruct (i =? d) eqn:E; [|rewrite Z.add_0_r; reflexivity]. apply Z.eqb_eq in E. subst i. rewrite <- (Z.mod_add (elem_off dim axes e d) 1 (N d)) by lia. f_equal. lia. }
  assert (K : coord a d = coord b d) by (rewrite Eab; reflexivity). unfold a, b in K. rewrite !coord_tri in K by lia. rewrite Z.eqb_refl in K. lia.
Qed.
Print Assumptions C88_few_periodic_functions.

(** I plus a matrix of ones *)
Definition ex_A (i j : Z) : R := ((if i =? j then 1 else 0) + 1)%R.
Lemma qform_ex_A n x : qform n ex_A x x = (rsum (fun i => x i * x i) (zseq 0 n) + rsum x (zseq 0 n) * rsum x (zseq 0 n))%R.
Proof.
  rewrite qform_mulv. rewrite <- rsum_scal, <- rsum_plus. apply rsum_ext. intros i Hi. apply in_zseq in Hi.
  assert (E : mulv n ex_A x i = (x i + rsum x (zseq 0 n))%R).
  { unfold mulv, ex_A. rewrite <- (rsum_delta n i x) at 1 by lia. rewrite <- rsum_plus. apply rsum_ext. intros j _. destruct (i =? j); ring. }
  rewrite E. ring.
Qed.
Lemma sum_squares_pos (x : Z -> R) l : (0 <= rsum (fun i => x i * x i) l)%R /\ (forall i, In i l -> x i <> 0%R -> 0 < rsum (fun i => x i * x i) l)%R.
Proof.
  induction l as [|a l [IH1 IH2]].
  - split; [unfold rsum; cbn; lra|intros i []].
  - rewrite rsum_cons. pose proof (Rle_0_sqr (x a)) as Q. unfold Rsqr in Q. split; [lra|].
    intros i [<-|Hi] Hx; [pose proof (Rsqr_pos_lt _ Hx) as Q2; unfold Rsqr in Q2; lra|specialize (IH2 i Hi Hx); lra].
Qed.
Lemma ex_A_spd n : spd n ex_A.
Proof.
  split.
  - intros i j _ _. unfold ex_A. rewrite Z.eqb_sym. reflexivity.
  - intros x (i & Hi & Hx). rewrite qform_ex_A. pose proof (proj2 (sum_squares_pos x (zseq 0 n)) i ltac:(apply in_zseq; lia) Hx).
    pose proof (Rle_0_sqr (rsum x (zseq 0 n))) as Q. unfold Rsqr in Q. lra.
Qed.

(** Quadratic periodic direction with two elements: two basis functions, three per element. *)
Definition per_axes : Z -> axis Zord := fun _ => ex_axis true 6 [0;1;2;3;4;5;6].
Definition per_LY (r : Z) : layout := layout_of 1 per_axes [1] (rank_coords [1] r).
Lemma per_setup_ok : setup_ok exact_g2 exact_g3 (2^31-1) 1 1 per_axes [-1] per_LY.
Proof.
  destruct ex_setup_ok as (H2 & H3 & _). split; [exact H2|]. split; [exact H3|]. split; [lia|]. split.
  - intros i _. split; [|split; reflexivity].
    apply (set_knots_wf (@mk_axis Zord true 2 1 (fun _ => 0) 1 1 (Some [0])) _ 6 (arr 0 [0;1;2;3;4;5;6])). reflexivity.
  - intros r Hr. replace r with 0 by lia. unfold stage1, per_LY.
    match goal with |- context [partition ?a ?b ?c ?d ?r ?e ?f] =>
      let v := eval vm_compute in (partition a b c d r e f) in
      assert (E : partition a b c d r e f = v) by (vm_compute; reflexivity); rewrite E end; reflexivity.
Qed.

(** A positive definite matrix on which the set-up stops with an error. *)
Theorem C88_positive_definite_refuted :
  exists (axes : Z -> axis Zord) LY (e0 : Z -> elem) sizes A,
  setup_ok exact_g2 exact_g3 (2^31-1) 1 1 axes [-1] LY /\ (ax_p (axes 0), ax_nel (axes 0), ax_nnp (axes 0)) = (2, 2, 2) /\ spd 2 A /\
  let G := fun r => grid_of 1 (ly_node (LY r)) in
  let elems := fun r => rank_elements (e0 r) 1 (ly_elem_start (LY r)) (ly_elem_width (LY r)) (sizes r) in
  let mapping := fun r e => closure (elem_off 1 axes e) (basis_nen 1 axes) (gr_gstart (G r)) (gr_gwidth (G r)) in
  (exists lapack, inverts lapack) /\ forall lapack, inverts lapack -> pc_ebe lapack 1 G 1 elems mapping [0] A = None.
Proof.
  exists per_axes, per_LY, (fun _ => no_elem), (fun _ _ => 0), ex_A. split; [exact per_setup_ok|]. split; [reflexivity|]. split; [apply ex_A_spd|].
  intros G elems mapping. split; [exists col_border; exact col_border_inverts|]. intros lapack HL.
  apply (C88_few_periodic_functions Zord exact_g2 exact_g3 (2^31-1) 1 per_axes [-1] per_LY 1 (fun _ => no_elem) (fun _ _ => 0) per_setup_ok ltac:(lia)); auto.
  exists 0. split; [lia|]. vm_compute. reflexivity.
Qed.
Print Assumptions C88_positive_definite_refuted.

(** Six processes, quadratic periodic x quadratic with repeated knots, two fields. *)
Example C88_example :
  setup_ok exact_g2 exact_g3 (2^31-1) 6 2 ex_axes [-1;-1] ex_LY /\
  (forall d, 0 <= d < 2 -> ax_p (ex_axes d) + 1 <= ax_nnp (ex_axes d)) /\ inverts col_border /\ spd (2 * (8 * (7 * 1))) ex_A /\
  Permutation [5;4;3;2;1;0] (zseq 0 6).
Proof.
  split; [exact ex_setup_ok|]. split.
  - intros d Hd. assert (E : d = 0 \/ d = 1) by lia. destruct E as [-> | ->]; vm_compute; discriminate.
  - split; [exact col_border_inverts|]. split; [apply ex_A_spd|]. change (zseq 0 6) with (rev [5;4;3;2;1;0]). apply Permutation_rev.
Qed.

(** * C89 *)
(** On one process, or without overlap: for A symmetric positive definite and grids larger than the overlap the set-up of
    "bbb" succeeds, its matrix is the sum of the inverses of the blocks, and it is symmetric positive definite. *)
Theorem C89_positive_definite :
  forall (O : KnotOrd) g2 g3 maxint size dim (axes : Z -> axis O) user (LY : Z -> layout) dof,
  setup_ok g2 g3 maxint size dim axes user LY -> 1 <= dof ->
  let G := fun r => grid_of dof (ly_node (LY r)) in
  let N := fun d => if d <? dim then ax_nnp (axes d) else 1 in
  let n := dof * (N 0 * (N 1 * N 2)) in
  forall req lapack A order, let ov d := bbb_overlap (ax_p (axes d)) (req d) in
  (forall d, 0 <= d < dim -> 2 * ov d < ax_nnp (axes d)) ->
  size = 1 \/ (forall d, 0 <= d < dim -> ov d = 0) ->
  inverts lapack -> Permutation order (zseq 0 size) -> spd n A ->
  exists B, pc_bbb lapack size G dim dof ov (fun r => ly_node (LY r)) order A = Some B /\
    sum_of_inverses n A B (bbb_blocks size G dim dof ov (fun r => ly_node (LY r)) order) /\ spd n B.
Proof.
  intros O g2 g3 maxint size dim axes user LY dof S Hdof G N n req lapack A order ov HS HC HL Ho HA.
  assert (Hord : forall r, In r order -> 0 <= r < size) by (intros r Hr; apply (Permutation_in _ Ho) in Hr; apply in_zseq in Hr; lia).
  pose proof (pc_world g2 g3 maxint size dim axes user LY dof S Hdof) as W. fold G in W. change (node_size dim axes) with N in W.
  set (blocks := bbb_blocks size G dim dof ov (fun r => ly_node (LY r)) order).
  assert (HF : forall l, In l blocks -> exists r t, 0 <= r < size /\ l = bbb_block size G dim dof ov (fun r => ly_node (LY r)) r t).
  { intros l Hl. unfold blocks, bbb_blocks in Hl. apply in_flat_map in Hl. destruct Hl as (r & Hr & Hl). apply in_map_iff in Hl. destruct Hl as (t & <- & Ht). exists r, t. auto. }
  pose proof (C15_numbering_is_permutation size dof N G W) as (_ & _ & HB & O0 & OS & _ & HO & _).
  assert (Hin : forall l x, In l blocks -> In x l -> 0 <= x < n).
  { intros l x Hl Hx. destruct (HF l Hl) as (r & t & Hr & ->). destruct (C46_blocks_fit g2 g3 maxint size dim axes user LY dof S Hdof req r t Hr) as (F1 & _).
    specialize (F1 x Hx). fold G in F1.
    assert (0 <= off G r) by (rewrite <- O0; apply (off_le _ _ _ _ W); lia).
    assert (off G (r+1) <= N 0 * (N 1 * N 2)) by (rewrite <- OS; apply (off_le _ _ _ _ W); lia). unfold n. split; [|eapply Z.lt_le_trans; [apply F1|apply Z.mul_le_mono_nonneg_l; lia]].
    apply Z.le_trans with (dof * off G r); [apply Z.mul_nonneg_nonneg; lia|apply F1]. }
  assert (HND : forall l, In l blocks -> NoDup l).
  { intros l Hl. destruct (HF l Hl) as (r & t & Hr & ->). destruct (C46_blocks_fit g2 g3 maxint size dim axes user LY dof S Hdof req r t Hr) as (_ & _ & F3).
    apply F3. intros d Hd. unfold node_size. replace (d <? dim) with true by lia. apply HS; auto. }
  assert (HR : forall l, In l blocks -> spd (len l) (restrict l A)).
  { intros l Hl. apply (restrict_spd n); auto. intros x Hx. apply (Hin l x Hl Hx). }
  assert (HSP : forall l, In l blocks -> bbb_invert lapack (len l) (mat_get_values A l) <> None) by (intros l Hl; apply bbb_succeeds; auto).
  destruct (fold_succeeds (bbb_invert lapack) A blocks HSP (fun _ _ => 0%R)) as (B & EB). exists B. split; [exact EB|].
  assert (HSI : sum_of_inverses n A B blocks).
  { apply setup_formula with (invert := bbb_invert lapack); auto. intros l Hl HN. apply bbb_inverse; auto. intros L1 E0.
    pose proof (proj2 (HR l Hl) (fun _ => 1%R) ltac:(exists 0; split; [lia|lra])) as P. rewrite L1 in P. unfold qform in P. change (zseq 0 1) with [0] in P.
    unfold rsum in P; cbn [map fold_right] in P. rewrite E0 in P. lra. }
  split; [exact HSI|]. apply (sum_spd n A B blocks); auto; [intros i j; apply qform_unit|].
  intros x Hx.
  assert (Hq : 0 <= x / dof < N 0 * (N 1 * N 2)) by (split; [apply Z.div_pos; lia|apply Z.div_lt_upper_bound; unfold n in Hx; lia]).
  destruct (HB _ Hq) as (t & (Ht & Et) & _).
  destruct (block_owner _ _ _ _ W (x / dof)) as (r & pos & Hr & Hpos & Epos).
  { unfold vol. replace (N 0 * N 1 * N 2) with (N 0 * (N 1 * N 2)) by ring. exact Hq. }
  assert (Hown : in_box (gr_lstart (G r)) (gr_lwidth (G r)) t).
  { apply HO; auto. rewrite Et, Epos. rewrite (off_S G r) by lia. lia. }
  assert (Hmod : 0 <= x mod dof < dof) by (apply Z.mod_pos_bound; lia).
  assert (Hcov : exists t', in_box (gr_lstart (G r)) (gr_lwidth (G r)) t' /\
    In (dof * ao size G (lin N t) + x mod dof) (bbb_block size G dim dof ov (fun r => ly_node (LY r)) r t')).
  { destruct HC as [H1|H0].
    - subst size. assert (r = 0) by lia. subst r. exact (C46_single_process g2 g3 maxint dim axes user LY dof S Hdof req t (x mod dof) Hmod Hown).
    - apply (C46_blocks_cover_partial g2 g3 maxint size dim axes user LY dof S Hdof req r t (x mod dof) Hr Hmod Hown). intros d Hd. left. apply H0; auto. }
  destruct Hcov as (t' & Ht' & Hx'). rewrite Et in Hx'. rewrite <- Z.div_mod in Hx' by lia.
  eexists. split; [|exact Hx']. unfold blocks, bbb_blocks. apply in_flat_map. exists r. split.
  - apply (Permutation_in _ (Permutation_sym Ho)), in_zseq. lia.
  - apply in_map. apply In_box. exact Ht'.
Qed.
Print Assumptions C89_positive_definite.

(** A node that is in no block of its process (C46 says which these are) gets zero rows and columns. *)
Theorem C89_uncovered_node :
  forall (O : KnotOrd) g2 g3 maxint size dim (axes : Z -> axis O) user (LY : Z -> layout) dof,
  setup_ok g2 g3 maxint size dim axes user LY -> 1 <= dof ->
  let G := fun r => grid_of dof (ly_node (LY r)) in
  let n := dof * (node_size dim axes 0 * (node_size dim axes 1 * node_size dim axes 2)) in
  forall req lapack A order r t c, let ov d := bbb_overlap (ax_p (axes d)) (req d) in
  let i := dof * ao size G (lin (node_size dim axes) t) + c in
  (forall d, 0 <= d < dim -> 2 * ov d < ax_nnp (axes d)) ->
  inverts lapack -> Permutation order (zseq 0 size) -> spd n A ->
  0 <= r < size -> 0 <= c < dof -> in_box (gr_lstart (G r)) (gr_lwidth (G r)) t ->
  (forall t', in_box (gr_lstart (G r)) (gr_lwidth (G r)) t' -> ~ In i (bbb_block size G dim dof ov (fun r => ly_node (LY r)) r t')) ->
  0 <= i < n /\
  exists B, pc_bbb lapack size G dim dof ov (fun r => ly_node (LY r)) order A = Some B /\ forall j, 0 <= j < n -> B i j = 0%R /\ B j i = 0%R.
Proof.
  intros O g2 g3 maxint size dim axes user LY dof S Hdof G n req lapack A order r t c ov i HS HL Ho HA Hr Hc Ht Hun.
  pose proof (pc_world g2 g3 maxint size dim axes user LY dof S Hdof) as W. fold G in W.
  assert (Hord : forall q, In q order -> 0 <= q < size) by (intros q Hq; apply (Permutation_in _ Ho) in Hq; apply in_zseq in Hq; lia).
  pose proof (C15_numbering_is_permutation size dof _ G W) as (H1 & _ & _ & O0 & OS & _ & HO & _).
  pose proof (own_in_grid _ _ _ _ W r t Hr Ht) as HN. destruct (H1 _ HN) as [_ HR]. pose proof (proj1 (HO r _ Hr HN) Ht) as HOr.
  set (V := node_size dim axes 0 * (node_size dim axes 1 * node_size dim axes 2)) in *.
  set (b := ao size G (lin (node_size dim axes) t)) in *.
  assert (Hi : 0 <= i < n).
  { unfold i, n. clear - HR Hc Hdof. split; [apply Z.add_nonneg_nonneg; [apply Z.mul_nonneg_nonneg|]; lia|].
    apply Z.lt_le_trans with (dof * (b + 1)); [lia|apply Z.mul_le_mono_nonneg_l; lia]. }
  split; [exact Hi|].
  set (blocks := bbb_blocks size G dim dof ov (fun r => ly_node (LY r)) order).
  assert (HF : forall l, In l blocks -> exists q u, 0 <= q < size /\ in_box (gr_lstart (G q)) (gr_lwidth (G q)) u /\ l = bbb_block size G dim dof ov (fun r => ly_node (LY r)) q u).
  { intros l Hl. unfold blocks, bbb_blocks in Hl. apply in_flat_map in Hl. destruct Hl as (q & Hq & Hl). apply in_map_iff in Hl. destruct Hl as (u & <- & Hu). exists q, u.
    apply In_box in Hu. auto. }
  assert (HSP : forall l, In l blocks -> bbb_invert lapack (len l) (mat_get_values A l) <> None).
  { intros l Hl. apply bbb_succeeds; auto. destruct (HF l Hl) as (q & u & Hq & _ & ->).
    destruct (C46_blocks_fit g2 g3 maxint size dim axes user LY dof S Hdof req q u Hq) as (F1 & _ & F3).
    fold G in F1, F3. apply (restrict_spd n); auto.
    - apply F3. intros d Hd. unfold node_size. replace (d <? dim) with true by lia. apply HS; auto.
    - intros y Hy. specialize (F1 y Hy).
      assert (L0 : 0 <= off G q) by (rewrite <- O0; apply (off_le _ _ _ _ W); lia).
      assert (L1 : off G (q+1) <= V) by (rewrite <- OS; apply (off_le _ _ _ _ W); lia). unfold n. split; [|eapply Z.lt_le_trans; [apply F1|apply Z.mul_le_mono_nonneg_l; lia]].
      apply Z.le_trans with (dof * off G q); [apply Z.mul_nonneg_nonneg; lia|apply F1]. }
  destruct (fold_succeeds (bbb_invert lapack) A blocks HSP (fun _ _ => 0%R)) as (B & EB). exists B. split; [exact EB|].
  intros j Hj. apply (setup_zero_row (bbb_invert lapack) A blocks B i EB); [lia| |lia].
  intros l Hl Hin. destruct (HF l Hl) as (q & u & Hq & Hu & ->).
  destruct (C46_blocks_fit g2 g3 maxint size dim axes user LY dof S Hdof req q u Hq) as (F1 & _).
  specialize (F1 i Hin). fold G in F1.
  assert (Eq : q = r).
  { assert (F2 : off G q <= b < off G (q+1)).
    { clear - F1 Hc Hdof. unfold i in F1. destruct F1 as [A1 A2]. split.
      - apply Z.lt_succ_r. apply (Z.mul_lt_mono_pos_l dof); lia.
      - apply (Z.mul_lt_mono_pos_l dof); lia. }
    destruct (Z.lt_trichotomy q r) as [L|[L|L]]; [|exact L|].
    - pose proof (off_le _ _ _ _ W (q+1) r ltac:(lia) ltac:(lia)). lia.
    - pose proof (off_le _ _ _ _ W (r+1) q ltac:(lia) ltac:(lia)). lia. }
  subst q. exact (Hun u Hu Hin).
Qed.
Print Assumptions C89_uncovered_node.

Lemma ex_uncovered : let G r := grid_of 2 (ly_node (ex_LY r)) in let ov d := bbb_overlap (ax_p (ex_axes d)) (-1) in
  in_box (gr_lstart (G 5)) (gr_lwidth (G 5)) (7,6,0) /\
  forall t', in_box (gr_lstart (G 5)) (gr_lwidth (G 5)) t' ->
    ~ In (2 * ao 6 G (lin (node_size 2 ex_axes) (7,6,0)) + 0) (bbb_block 6 G 2 2 ov (fun r => ly_node (ex_LY r)) 5 t').
Proof.
  intros G ov.
  assert (HI : in_box (gr_lstart (G 5)) (gr_lwidth (G 5)) (7,6,0)) by (vm_compute; repeat split; discriminate).
  split; [exact HI|]. intros t' Ht' HIn.
  pose proof (proj1 (C46_blocks_cover_partial exact_g2 exact_g3 (2^31-1) 6 2 ex_axes [-1;-1] ex_LY 2 ex_setup_ok ltac:(lia) (fun _ => -1) 5 (7,6,0) 0 ltac:(lia) ltac:(lia) HI)
    (ex_intro _ t' (conj Ht' HIn)) 1 ltac:(lia)) as K. cbv zeta in K. vm_compute in K.
  destruct K as [K|[K|[K|K]]]; discriminate K.
Qed.

(** Such nodes exist (six processes, default overlap): the set-up succeeds on a positive definite matrix, and the
    preconditioner is singular. *)
Theorem C89_positive_definite_refuted :
  exists size dim (axes : Z -> axis Zord) user LY dof req A i, setup_ok exact_g2 exact_g3 (2^31-1) size dim axes user LY /\
  let G := fun r => grid_of dof (ly_node (LY r)) in
  let ov d := bbb_overlap (ax_p (axes d)) (req d) in
  let n := dof * (node_size dim axes 0 * (node_size dim axes 1 * node_size dim axes 2)) in
  (forall d, 0 <= d < dim -> 2 * ov d < ax_nnp (axes d)) /\ spd n A /\ 0 <= i < n /\
  (exists lapack, inverts lapack) /\
  forall lapack order, inverts lapack -> Permutation order (zseq 0 size) ->
  exists B, pc_bbb lapack size G dim dof ov (fun r => ly_node (LY r)) order A = Some B /\ forall j, 0 <= j < n -> B i j = 0%R /\ B j i = 0%R.
Proof.
  set (G := fun r => grid_of 2 (ly_node (ex_LY r))).
  exists 6, 2, ex_axes, [-1;-1], ex_LY, 2, (fun _ => -1), ex_A, (2 * ao 6 G (lin (node_size 2 ex_axes) (7,6,0)) + 0).
  split; [exact ex_setup_ok|]. intros G' ov n. change G' with G. clear G'.
  assert (HS : forall d, 0 <= d < 2 -> 2 * ov d < ax_nnp (ex_axes d)) by (intros d Hd; assert (E : d = 0 \/ d = 1) by lia; destruct E as [-> | ->]; vm_compute; reflexivity).
  assert (K : forall lapack order, inverts lapack -> Permutation order (zseq 0 6) ->
    0 <= 2 * ao 6 G (lin (node_size 2 ex_axes) (7,6,0)) + 0 < n /\
    exists B, pc_bbb lapack 6 G 2 2 ov (fun r => ly_node (ex_LY r)) order ex_A = Some B /\
      forall j, 0 <= j < n -> B (2 * ao 6 G (lin (node_size 2 ex_axes) (7,6,0)) + 0) j = 0%R /\ B j (2 * ao 6 G (lin (node_size 2 ex_axes) (7,6,0)) + 0) = 0%R).
  { intros lapack order HL Ho.
    apply (C89_uncovered_node Zord exact_g2 exact_g3 (2^31-1) 6 2 ex_axes [-1;-1] ex_LY 2 ex_setup_ok ltac:(discriminate) (fun _ => -1) lapack ex_A order 5 (7,6,0) 0 HS HL Ho (ex_A_spd _)).
    - split; [discriminate|reflexivity].
    - split; [discriminate|reflexivity].
    - exact (proj1 ex_uncovered).
    - exact (proj2 ex_uncovered). }
  split; [exact HS|]. split; [apply ex_A_spd|]. split; [apply (proj1 (K col_border (zseq 0 6) col_border_inverts (Permutation_refl _)))|].
  split; [exists col_border; exact col_border_inverts|]. intros lapack order HL Ho. exact (proj2 (K lapack order HL Ho)).
Qed.
Print Assumptions C89_positive_definite_refuted.

(** The hypotheses of the first theorem, on one process with the default overlap 1. *)
Definition one_LY (r : Z) : layout := layout_of 2 ex_axes [1; 1] (rank_coords [1; 1] r).
Example C89_example :
  setup_ok exact_g2 exact_g3 (2^31-1) 1 2 ex_axes [-1;-1] one_LY /\
  (forall d, 0 <= d < 2 -> let ov := bbb_overlap (ax_p (ex_axes d)) (-1) in ov = 1 /\ 2 * ov < ax_nnp (ex_axes d)) /\ inverts col_border /\ spd (1 * (8 * (7 * 1))) ex_A.
Proof.
  split.
  - destruct ex_setup_ok as (H2 & H3 & _ & HA & _). split; [exact H2|]. split; [exact H3|]. split; [lia|]. split; [exact HA|].
    intros r Hr. replace r with 0 by lia. unfold stage1, one_LY.
    match goal with |- context [partition ?a ?b ?c ?d ?r ?e ?f] =>
      let v := eval vm_compute in (partition a b c d r e f) in
      assert (E : partition a b c d r e f = v) by (vm_compute; reflexivity); rewrite E end; reflexivity.
  - split; [|split; [exact col_border_inverts|apply ex_A_spd]].
    intros d Hd. assert (E : d = 0 \/ d = 1) by lia. destruct E as [-> | ->]; vm_compute; auto.
Qed.
