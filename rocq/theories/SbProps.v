(** Theorems about the block matrix formats (C121). *)
From Coq Require Import ZArith List Bool Lia Reals Lra Permutation.
From Coq Require Import ZifyBool ZifyNat.
From Verif Require Import Prelude RealOrd AxisModel AxisSpec AxisInitModel AxisProps PartModel PartSpec PartProofs PartProps SetupModel SetupProofs SetupProps Box GridModel GridSpec GridProofs GridProofs2
  GridSetup GridProps ElemModel ElemSpec ElemProofs AsmProofs ElemProps MatModel MatSpec MatProofs MatProofs2 MatProps SbModel SbSpec SbProofs.
Import ListNotations.
Open Scope Z_scope.

(** * C121 *)
(** MATBAIJ holds an entry exactly when MATAIJ does, and MATSBAIJ holds exactly the blocks of MATBAIJ on
    and above the diagonal.  (Negative indices are never part of a matrix.) *)
Theorem C121_structure :
  forall (O : KnotOrd) dim (axes : Z -> axis O) size (G : Z -> grid) bs r i j, 1 <= bs -> 0 <= i -> 0 <= j ->
  (In (i, j) (mat_pattern dim axes size G bs r) <-> In (block_of bs i j) (block_pattern dim axes size G false r)) /\
  (In (i, j) (block_pattern dim axes size G true r) <-> In (i, j) (block_pattern dim axes size G false r) /\ i <= j).
Proof.
  intros O dim axes size G bs r i j Hbs Hi Hj. split; [apply in_mat_pattern; auto|].
  rewrite !in_block_pattern. split.
  - intros (t & A & B & C & D & E & F). split; [|apply F; reflexivity]. exists t. repeat split; auto; discriminate.
  - intros [(t & A & B & C & D & E & _) F]. exists t. repeat split; auto.
Qed.
Print Assumptions C121_structure.

(** Both indices of a contribution come from the same element, so the transposed entry is written too. *)
Lemma entries_transposed : forall size G dof mapping Ke ins L0 r e i j x,
  In (i, j, x) (mat_entries size G dof mapping Ke ins L0 r e) -> exists x', In (j, i, x') (mat_entries size G dof mapping Ke ins L0 r e).
Proof.
  intros size G dof mapping Ke ins L0 r e i j x Hin. unfold mat_entries in *. cbv zeta in *.
  apply in_flat_map in Hin. destruct Hin as (p & Hp & Hin).
  apply in_flat_map in Hin. destruct Hin as (c & Hc & Hin).
  apply in_flat_map in Hin. destruct Hin as (q & Hq & Hin).
  apply in_map_iff in Hin. destruct Hin as (d & E & Hd). injection E as <- <- _.
  eexists. apply in_flat_map. exists q. split; [exact Hq|]. apply in_flat_map. exists d. split; [exact Hd|].
  apply in_flat_map. exists p. split; [exact Hp|]. apply in_map_iff. exists c. split; [reflexivity|exact Hc].
Qed.

(** Whatever an element adds has its block in the structure of the rank owning the row: for MATBAIJ
    always, for MATSBAIJ if the block is on or above the diagonal; otherwise MATSBAIJ holds the
    transposed block, on the rank owning the transposed row. *)
Theorem C121_assembly_fits :
  forall (O : KnotOrd) g2 g3 maxint size dim (axes : Z -> axis O) user (LY : Z -> layout) dof (e0 : Z -> elem) (sizes : Z -> Z -> Z),
  setup_ok g2 g3 maxint size dim axes user LY -> 1 <= dof ->
  (forall d, 0 <= d < dim -> ax_periodic (axes d) = true ->
     periodic_pattern (ax_p (axes d)) (ax_m (axes d)) (ax_nnp (axes d)) (ax_U (axes d))) ->
  let G := fun r => grid_of dof (ly_node (LY r)) in
  let mapping := fun r e => closure (elem_off dim axes e) (basis_nen dim axes) (gr_gstart (G r)) (gr_gwidth (G r)) in
  forall Ke ins L0 r e i j x, 0 <= r < size ->
  In e (rank_elements (e0 r) dim (ly_elem_start (LY r)) (ly_elem_width (LY r)) (sizes r)) ->
  In (i, j, x) (mat_entries size G dof mapping Ke ins L0 r e) ->
  (exists q, 0 <= q < size /\ off G q <= i / dof < off G (q + 1) /\ In (block_of dof i j) (block_pattern dim axes size G false q)) /\
  (i / dof <= j / dof ->
   exists q, 0 <= q < size /\ off G q <= i / dof < off G (q + 1) /\ In (block_of dof i j) (block_pattern dim axes size G true q)) /\
  (j / dof < i / dof ->
   exists q, 0 <= q < size /\ off G q <= j / dof < off G (q + 1) /\ In (block_of dof j i) (block_pattern dim axes size G true q)).
Proof.
  intros O g2 g3 maxint size dim axes user LY dof e0 sizes S Hdof Hper G mapping Ke ins L0 r e i j x Hr He Hin.
  assert (K : forall i j x, In (i, j, x) (mat_entries size G dof mapping Ke ins L0 r e) ->
    exists q, 0 <= q < size /\ off G q <= i / dof < off G (q + 1) /\ In (block_of dof i j) (block_pattern dim axes size G false q)).
  { clear i j x Hin. intros i j x Hin.
    destruct (C26_C27_assembly_within_pattern O g2 g3 maxint size dim axes user LY dof e0 sizes S Hdof Hper Ke ins L0 r e i j x Hr He Hin)
      as (q & Hq & Hi & Hp).
    fold G in Hi, Hp. exists q. split; [exact Hq|].
    assert (Hij : 0 <= i /\ 0 <= j).
    { unfold mat_pattern in Hp. apply filter_In in Hp. destruct Hp as [_ Hp]. cbn [fst snd] in Hp. lia. }
    split.
    - split; [apply Z.div_le_lower_bound; lia|apply Z.div_lt_upper_bound; lia].
    - apply (proj1 (C121_structure O dim axes size G dof q i j Hdof (proj1 Hij) (proj2 Hij))). exact Hp. }
  assert (L : forall i j, (exists q, 0 <= q < size /\ off G q <= i / dof < off G (q + 1) /\ In (block_of dof i j) (block_pattern dim axes size G false q)) ->
     i / dof <= j / dof ->
     exists q, 0 <= q < size /\ off G q <= i / dof < off G (q + 1) /\ In (block_of dof i j) (block_pattern dim axes size G true q)).
  { clear. intros i j (q & Hq & Hi & Hp) Hle. exists q. split; [exact Hq|]. split; [exact Hi|].
    unfold block_of in *. apply in_block_pattern in Hp. apply in_block_pattern. destruct Hp as (t & A & B & C & D & E & _).
    exists t. split; [exact A|]. split; [exact B|]. split; [exact C|]. split; [exact D|]. split; [exact E|]. intros _. exact Hle. }
  split; [exact (K i j x Hin)|]. split.
  - apply L. exact (K i j x Hin).
  - intros Hlt. destruct (entries_transposed _ _ _ _ _ _ _ _ _ _ _ _ Hin) as (x' & Hin').
    apply L; [exact (K j i x' Hin')|lia].
Qed.
Print Assumptions C121_assembly_fits.

(** The preallocated block counts hold every set of distinct blocks of the row's structure: inside the
    rank's own range (dnz) and outside of it (onz). *)
Theorem C121_preallocation_suffices :
  forall (O : KnotOrd) g2 g3 maxint size dim (axes : Z -> axis O) user (LY : Z -> layout) dof (sym : bool),
  setup_ok g2 g3 maxint size dim axes user LY -> 1 <= dof ->
  (forall d, 0 <= d < dim -> ax_periodic (axes d) = true ->
     periodic_pattern (ax_p (axes d)) (ax_m (axes d)) (ax_nnp (axes d)) (ax_U (axes d))) ->
  let G := fun r => grid_of dof (ly_node (LY r)) in
  let N := fun d => if d <? dim then ax_nnp (axes d) else 1 in
  let total := N 0 * N 1 * N 2 in
  forall r t, 0 <= r < size -> in_box (gr_lstart (G r)) (gr_lwidth (G r)) t ->
  let lo := off G r in let hi := off G (r+1) in
  let row := mat_row dim axes size G r t in
  let cols := block_cols dim axes size G sym r t in
  lo <= row < hi /\
  let (dnz, onz) := block_prealloc dim axes sym (nlocal (G r)) total lo hi row cols in
  forall L, NoDup L -> (forall c, In c L -> In (row, c) (block_pattern dim axes size G sym r) /\ c < total) ->
  Z.of_nat (length (filter (fun c => (lo <=? c) && (c <? hi)) L)) <= dnz /\
  Z.of_nat (length (filter (fun c => negb ((lo <=? c) && (c <? hi))) L)) <= onz.
Proof.
  intros O g2 g3 maxint size dim axes user LY dof sym S Hdof Hper G N total r t Hr Ht lo hi row cols.
  pose proof (setup_world _ _ _ _ _ _ _ _ S dof Hdof) as W. fold G in W. change (node_size dim axes) with N in W.
  assert (Hax : forall d, 0 <= d < dim -> exists l, wf (axes d) l /\ ends_nonempty (ax_p (axes d)) (ax_m (axes d)) (ax_U (axes d)))
    by (intros d Hd; apply (setup_wf _ _ _ _ _ _ _ _ S d Hd)).
  assert (HtN : in_box zero3 N t) by exact (own_in_grid _ _ _ _ W r t Hr Ht).
  assert (Erow : forall q u, 0 <= q < size -> in_box (gr_lstart (G q)) (gr_lwidth (G q)) u -> mat_row dim axes size G q u = ao size G (lin N u)).
  { intros q u Hq Hu. apply (row_index size dim dof axes N G); auto. }
  assert (Hrow : lo <= row < hi).
  { unfold row. rewrite (Erow r t Hr Ht). destruct (C15_numbering_is_permutation size dof N G W) as (_ & _ & _ & _ & _ & _ & K & _). apply K; auto. }
  split; [exact Hrow|].
  assert (Hsz : off G size = total) by exact (off_size _ _ _ _ W).
  assert (Hle : hi <= total) by (unfold hi; rewrite <- Hsz; apply (off_le _ _ _ _ W); lia).
  pose proof (off_S G r ltac:(lia)) as HS. fold lo hi in HS.
  pose proof (nlocal_nonneg _ _ _ _ W r Hr) as Hnl.
  pose proof (off_nonneg _ _ _ _ W r ltac:(lia)) as Ho. fold lo in Ho.
  (* a block of the structure in this row comes from this row's columns *)
  assert (Q : forall c, In (row, c) (block_pattern dim axes size G sym r) -> In c cols /\ 0 <= c /\ (sym = true -> row <= c)).
  { intros c Hc. apply in_block_pattern in Hc. destruct Hc as (t' & Ht' & E & H1 & H2 & H3 & H4). apply In_box in Ht'.
    assert (Et : t' = t).
    { unfold row in E. rewrite (Erow r t Hr Ht), (Erow r t' Hr Ht') in E.
      assert (HtN' : in_box zero3 N t') by exact (own_in_grid _ _ _ _ W r t' Hr Ht').
      symmetry in E. apply (ao_inj _ _ _ _ W) in E; [|apply lin_in_range; auto|apply lin_in_range; auto].
      apply lin_inj in E; auto. }
    subst t'. split; [|split; [exact H2|exact H4]]. apply in_block_cols. split; [exact H3|]. exact H4. }
  assert (E : block_prealloc dim axes sym (nlocal (G r)) total lo hi row cols = prealloc dim axes 1 (nlocal (G r)) total lo hi cols).
  { destruct sym; [|reflexivity]. unfold block_prealloc, prealloc. cbv zeta. rewrite sym_counts_len by lia.
    assert (HC : forall c, In c cols -> row <= c) by (intros c Hc; apply in_block_cols in Hc; destruct Hc as [_ Hc]; apply Hc; reflexivity).
    rewrite !Z.mul_1_r.
    assert (E1 : filter (fun c => (row <=? c) && (c <? hi)) cols = filter (fun c => (lo <=? c) && (c <? hi)) cols).
    { apply filter_ext_in. intros c Hc. specialize (HC c Hc). clear - HC Hrow. lia. }
    assert (E2 : filter (fun c => hi <=? c) cols = filter (fun c => negb ((lo <=? c) && (c <? hi))) cols).
    { apply filter_ext_in. intros c Hc. specialize (HC c Hc). clear - HC Hrow. lia. }
    rewrite E1, E2. reflexivity. }
  rewrite E. clear E.
  destruct (prealloc dim axes 1 (nlocal (G r)) total lo hi cols) as [dnz onz] eqn:E. intros L HL HI.
  pose proof (prealloc_enough O dim axes 1 (nlocal (G r)) total lo hi cols L) as K. rewrite E in K. cbn [fst snd] in K. apply K.
  - clear - HS. lia.
  - exact Ho.
  - clear - Hle. lia.
  - clear - Hnl. lia.
  - exact HL.
  - intros c Hc. destruct (HI c Hc) as [H1 H2]. destruct (Q c H1) as (H3 & H4 & _). split; [exact H3|]. rewrite Z.mul_1_r. split; assumption.
Qed.
Print Assumptions C121_preallocation_suffices.

(** If every element matrix is symmetric, assembling only the blocks on and above the diagonal into
    MATSBAIJ gives, read symmetrically, the same matrix as full assembly: the sum over all elements. *)
Theorem C121_symmetric_values :
  forall (O : KnotOrd) g2 g3 maxint size dim (axes : Z -> axis O) user (LY : Z -> layout) dof (e0 : Z -> elem) (sizes : Z -> Z -> Z),
  setup_ok g2 g3 maxint size dim axes user LY -> 1 <= dof ->
  let G := fun r => grid_of dof (ly_node (LY r)) in
  let N := fun d => if d <? dim then ax_nnp (axes d) else 1 in
  let nel := fun d => if d <? dim then ax_nel (axes d) else 1 in
  let nen := fun d => if d <? dim then ax_p (axes d) + 1 else 1 in
  let first := fun e d => if d <? dim then span_at (axes d) (coord e d) - ax_p (axes d) else 0 in
  let elems := fun r => rank_elements (e0 r) dim (ly_elem_start (LY r)) (ly_elem_width (LY r)) (sizes r) in
  let mapping := fun r e => closure (elem_off dim axes e) (basis_nen dim axes) (gr_gstart (G r)) (gr_gwidth (G r)) in
  forall Ke (ins : list (Z -> R)) (X : list nodal) L0 order,
  Permutation order (zseq 0 size) ->
  Forall2 (fun V x => forall t c, in_box zero3 N t -> 0 <= c < dof -> V (dof * ao size G (lin N t) + c) = x t c) ins X ->
  (forall e l, symmetric_array (nen 0 * nen 1 * nen 2 * dof) (Ke e l)) ->
  forall t c u d, in_box zero3 N t -> 0 <= c < dof -> in_box zero3 N u -> 0 <= d < dof ->
  symmetric_of dof (compute_sym size G dof elems mapping Ke ins L0 order)
    (dof * ao size G (lin N t) + c) (dof * ao size G (lin N u) + d) = serial_matrix N nen first dof nel Ke X t c u d.
Proof.
  intros O g2 g3 maxint size dim axes user LY dof e0 sizes S Hdof G N nel nen first elems mapping Ke ins X L0 order Hord Hins Hsym t c u d Ht Hc Hu Hd.
  pose proof (setup_world _ _ _ _ _ _ _ _ S dof Hdof) as W. fold G in W. change (node_size dim axes) with N in W.
  pose proof (C21_C51_assembly_is_serial_sum O g2 g3 maxint size dim axes user LY dof e0 sizes S Hdof
    (fun _ _ _ => 0%R) Ke (fun _ => 0) (fun _ _ => 0%R) (fun _ _ _ _ => 0%R) ins X L0 order Hord Hins) as (_ & HM & _).
  fold G N nel nen first elems mapping in HM.
  assert (P : forall t c, in_box zero3 N t -> 0 <= c < dof -> 0 <= dof * ao size G (lin N t) + c).
  { intros t0 c0 Ht0 Hc0. pose proof (ao_range _ _ _ _ W _ (lin_in_range N _ Ht0)) as RA.
    assert (0 <= dof * ao size G (lin N t0)) by (apply Z.mul_nonneg_nonneg; lia). lia. }
  unfold symmetric_of. destruct (Z_le_dec _ _) as [L | L].
  - rewrite compute_sym_upper by (auto). exact (HM t c u d Ht Hc Hu Hd).
  - rewrite compute_sym_upper by (auto; lia). etransitivity; [exact (HM u d t c Hu Hd Ht Hc)|].
    unfold serial_matrix. apply rsum_ext. intros e _. rewrite rsum_comm. apply rsum_ext. intros b Hb. apply rsum_ext. intros a Ha.
    rewrite andb_comm. destruct (triple_eqb _ _ && triple_eqb _ _); [|reflexivity].
    assert (V : vol nen * dof = nen 0 * nen 1 * nen 2 * dof) by reflexivity. rewrite V. clear V.
    assert (B : forall a c, In a (box zero3 nen) -> 0 <= c < dof -> 0 <= lin nen a * dof + c < nen 0 * nen 1 * nen 2 * dof).
    { clear. intros a c Ha Hc. apply In_box in Ha. pose proof (lin_in_range nen a Ha) as K. unfold vol in K.
      generalize dependent (lin nen a). intros x K. generalize dependent (nen 0 * nen 1 * nen 2). intros y K.
      assert (0 <= x * dof) by (apply Z.mul_nonneg_nonneg; lia).
      assert ((x + 1) * dof <= y * dof) by (apply Z.mul_le_mono_nonneg_r; lia). lia. }
    apply Hsym; apply B; assumption.
Qed.
Print Assumptions C121_symmetric_values.

(** ** Example *)
(** The periodic x clamped grid on 6 processes of C26_C27_C28_example.  All blocks of row 0 are on or above
    the diagonal; row 4 keeps eleven of fifteen.  Row 18 (rank 2) couples across the seam with row 0
    (rank 0): the block (18, 0) is dropped, its transpose (0, 18) is in row 0. *)
Example C121_example :
  setup_ok exact_g2 exact_g3 (2^31-1) 6 2 ex_axes [-1;-1] ex_LY /\
  block_cols 2 ex_axes 6 ex_G true 0 (0, 0, 0) = [18; 19; 0; 1; 2; 20; 21; 3; 4; 5; 22; 23; 6; 7; 8] /\
  mat_row 2 ex_axes 6 ex_G 0 (1, 1, 0) = 4 /\
  block_cols 2 ex_axes 6 ex_G false 0 (1, 1, 0) = [19; 0; 1; 2; 9; 21; 3; 4; 5; 12; 23; 6; 7; 8; 15] /\
  block_cols 2 ex_axes 6 ex_G true 0 (1, 1, 0) = [19; 9; 21; 4; 5; 12; 23; 6; 7; 8; 15] /\
  block_prealloc 2 ex_axes true 9 56 0 9 4 (block_cols 2 ex_axes 6 ex_G true 0 (1, 1, 0)) = (5, 6) /\
  mat_row 2 ex_axes 6 ex_G 2 (6, 0, 0) = 18 /\
  block_cols 2 ex_axes 6 ex_G false 2 (6, 0, 0) = [10; 11; 18; 19; 0; 13; 14; 20; 21; 3; 16; 17; 22; 23; 6] /\
  block_cols 2 ex_axes 6 ex_G true 2 (6, 0, 0) = [18; 19; 20; 21; 22; 23].
Proof. split; [exact ex_setup_ok|]. vm_compute. repeat split. Qed.

(** A symmetric element matrix: K p q = (p + q) for nine functions and two fields, 18 x 18. *)
Example C121_symmetric_example : symmetric_array 18 (fun i => IZR (i / 18 + i mod 18)).
Proof.
  assert (K : forall a b, 0 <= b < 18 -> (a * 18 + b) / 18 = a /\ (a * 18 + b) mod 18 = b).
  { intros a b Hb. split; [rewrite Z.div_add_l, Z.div_small; lia|]. rewrite Z.add_comm, Z.mod_add by lia. apply Z.mod_small; lia. }
  intros p q Hp Hq. f_equal. destruct (K p q Hq) as [-> ->]. destruct (K q p Hp) as [-> ->]. lia.
Qed.

(** The hypothesis matters: with an unsymmetric element matrix the stored half does not determine the
    assembled matrix (one element, two functions, one field, one process). *)
Example C121_symmetry_needed :
  let M := [(0, 0, 1%R); (0, 1, 2%R); (1, 0, 3%R); (1, 1, 4%R)] in
  symmetric_of 1 (add_entries2 (upper_entries 1 M) (fun _ _ => 0%R)) 1 0 = 2%R /\ add_entries2 M (fun _ _ => 0%R) 1 0 = 3%R.
Proof. cbv zeta. unfold symmetric_of. destruct (Z_le_dec _ _) as [L | L]; [vm_compute in L; congruence|]. split; [unfold add_entries2; simpl; unfold upd2; simpl; ring|unfold add_entries2; simpl; unfold upd2; simpl; ring]. Qed.
