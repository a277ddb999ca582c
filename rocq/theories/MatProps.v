(** Theorems about the nonzero structure of matrices (C26, C27, C28). *)
From Coq Require Import ZArith List Bool Lia Reals.
From Coq Require Import ZifyBool ZifyNat.
From Verif Require Import Prelude RealOrd AxisModel AxisSpec AxisInitModel AxisProps PartModel PartSpec PartProofs PartProps SetupModel SetupProofs SetupProps Box GridModel GridSpec GridProofs GridProofs2
  GridSetup GridProps ElemModel ElemSpec ElemProofs AsmProofs ElemProps MatModel MatSpec MatProofs MatProofs2.
Import ListNotations.
Open Scope Z_scope.

(** The functions coupled by an element are active on it. *)
Lemma elem_coupled : forall (O : KnotOrd) g2 g3 maxint size dim (axes : Z -> axis O) user (LY : Z -> layout),
  setup_ok g2 g3 maxint size dim axes user LY ->
  forall r e, 0 <= r < size -> In e (box (ly_elem_start (LY r)) (ly_elem_width (LY r))) ->
  forall a b, In a (box zero3 (basis_nen dim axes)) -> In b (box zero3 (basis_nen dim axes)) ->
  forall d, 0 <= d < 3 -> coupled dim axes d (coord (tadd (elem_off dim axes e) a) d) (coord (tadd (elem_off dim axes e) b) d).
Proof.
  intros O g2 g3 maxint size dim axes user LY S r e Hr He a b Ha Hb d Hd.
    assert (Hax : forall d, 0 <= d < dim -> exists l, wf (axes d) l /\ ends_nonempty (ax_p (axes d)) (ax_m (axes d)) (ax_U (axes d)))
      by (intros i Hi; apply (setup_wf _ _ _ _ _ _ _ _ S i Hi)).
    assert (Q : forall a, In a (box zero3 (basis_nen dim axes)) ->
       exists x, 0 <= x < basis_nen dim axes d /\ coord (tadd (elem_off dim axes e) a) d = basis_offset dim axes d (coord e d) + x).
    { intros [[a0 a1] a2] K. apply In_box in K. unfold in_box, zero3 in K. rewrite <- elem_off_coord by auto. unfold tadd, coord.
      assert (Ed : d = 0 \/ d = 1 \/ d = 2) by lia. destruct Ed as [-> | [-> | ->]].
      - exists a0. split; [lia|reflexivity].
      - exists a1. split; [lia|reflexivity].
      - exists a2. split; [lia|reflexivity]. }
    destruct (Q a Ha) as (u & Hu & ->). destruct (Q b Hb) as (v & Hv & ->). clear Q.
    unfold coupled, basis_nen, basis_offset in *. destruct (d <? dim) eqn:E; [|lia].
    destruct (Hax d ltac:(lia)) as (l & L & _). exists (span_at (axes d) (coord e d)). split.
    - apply (span_at_elem (axes d) l L).
      pose proof (proj1 (setup_elem_tile _ _ _ _ _ _ _ _ S) r Hr d Hd) as HS. cbv beta in HS. unfold elem_size, zero3 in HS. rewrite E in HS.
      apply In_box in He. destruct e as [[c0 c1] c2]. unfold in_box in He. unfold coord.
      assert (Ed : d = 0 \/ d = 1 \/ d = 2) by lia.
      destruct Ed as [-> | [-> | ->]]; [change (0 =? 0) with true|change (1 =? 0) with false; change (1 =? 1) with true|change (2 =? 0) with false; change (2 =? 1) with false]; cbv iota; lia.
    - unfold active. split; lia. 
Qed.

(** * C26, C27 *)
(** Whatever IGAElementAssembleMat adds on any rank lies at a location that IGACreateMat has already
    set on the rank owning the row (and the row is indeed in that rank's range). *)
Theorem C26_C27_assembly_within_pattern :
  forall (O : KnotOrd) g2 g3 maxint size dim (axes : Z -> axis O) user (LY : Z -> layout) dof (e0 : Z -> elem) (sizes : Z -> Z -> Z),
  setup_ok g2 g3 maxint size dim axes user LY -> 1 <= dof ->
  (forall d, 0 <= d < dim -> ax_periodic (axes d) = true ->
     periodic_pattern (ax_p (axes d)) (ax_m (axes d)) (ax_nnp (axes d)) (ax_U (axes d))) ->
  let G := fun r => grid_of dof (ly_node (LY r)) in
  let mapping := fun r e => closure (elem_off dim axes e) (basis_nen dim axes) (gr_gstart (G r)) (gr_gwidth (G r)) in
  forall Ke ins L0 r e i j x, 0 <= r < size ->
  In e (rank_elements (e0 r) dim (ly_elem_start (LY r)) (ly_elem_width (LY r)) (sizes r)) ->
  In (i, j, x) (mat_entries size G dof mapping Ke ins L0 r e) ->
  exists q, 0 <= q < size /\ dof * off G q <= i < dof * off G (q + 1) /\
    In (i, j) (mat_pattern dim axes size G dof q).
Proof.
  intros O g2 g3 maxint size dim axes user LY dof e0 sizes S Hdof Hper G mapping Ke ins L0 r e i j x Hr He Hin.
  rewrite (visited_box O g2 g3 maxint size dim axes user LY e0 sizes S r Hr) in He.
  set (N := fun d => if d <? dim then ax_nnp (axes d) else 1).
  pose proof (setup_world _ _ _ _ _ _ _ _ S dof Hdof) as W. fold G in W. change (node_size dim axes) with N in W.
  destruct (setup_form _ _ _ _ _ _ _ _ S) as (n & Hn & HL & Hdim & Hz & HP & HLY).
  assert (Hax : forall d, 0 <= d < dim -> exists l, wf (axes d) l /\ ends_nonempty (ax_p (axes d)) (ax_m (axes d)) (ax_U (axes d)))
    by (intros d Hd; apply (setup_wf _ _ _ _ _ _ _ _ S d Hd)).
  assert (Hg : forall r d, 0 <= r < size -> 0 <= d < 3 -> - N d <= gr_gstart (G r) d).
  { intros q d Hq Hd. pose proof (setup_node_facts _ _ _ _ _ _ _ _ S q d Hq Hd) as (A & B & C & _).
    unfold G; cbn [grid_of gr_gstart]. unfold node_size in B. fold (N d) in B. lia. }
  set (elems := fun r => box (ly_elem_start (LY r)) (ly_elem_width (LY r))).
  assert (Hcov : forall r e a, 0 <= r < size -> In e (elems r) -> In a (box zero3 (basis_nen dim axes)) ->
    in_box (gr_gstart (G r)) (gr_gwidth (G r)) (tadd (elem_off dim axes e) a)).
  { intros q f a Hq Hf Ha. exact (setup_cover O g2 g3 maxint size dim axes user LY dof S q f a Hq Hf Ha). }
  pose proof (elem_coupled O g2 g3 maxint size dim axes user LY S r e Hr He) as Hact.
  unfold mat_entries in Hin. cbv zeta in Hin.
  apply in_flat_map in Hin. destruct Hin as ([pa pm] & Hpa & Hin).
  apply in_flat_map in Hin. destruct Hin as (c & Hc & Hin).
  apply in_flat_map in Hin. destruct Hin as ([qa qm] & Hqa & Hin).
  apply in_map_iff in Hin. destruct Hin as (d & E & Hd). cbn [fst snd] in E. injection E as <- <- _.
  apply in_combine_r in Hpa, Hqa. apply in_zseq in Hc, Hd.
  unfold mapping, closure in Hpa, Hqa.
  apply in_map_iff in Hpa. destruct Hpa as (a & Epm & Ha). apply in_map_iff in Hqa. destruct Hqa as (b & Eqm & Hb).
  assert (Q : forall a x, (let '(ia, ja, ka) := a in
      elem_off dim axes e 0 + ia - gr_gstart (G r) 0 + (elem_off dim axes e 1 + ja - gr_gstart (G r) 1) * gr_gwidth (G r) 0 +
      (elem_off dim axes e 2 + ka - gr_gstart (G r) 2) * (gr_gwidth (G r) 0 * gr_gwidth (G r) 1)) = x ->
      In a (box zero3 (basis_nen dim axes)) -> lgmap size G r x = ao size G (lin N (modbox N (tadd (elem_off dim axes e) a)))).
  { intros u y Eu Hu. rewrite <- (entry_node size dof N G W r _ Hr (fun d => Hg r d Hr) (Hcov r e u Hr He Hu)). f_equal. rewrite <- Eu.
    destruct u as [[u0 u1] u2]. unfold lin, tsub, tadd. reflexivity. }
  rewrite (Q a pm Epm Ha), (Q b qm Eqm Hb).
  exact (pattern_covered size dim dof axes N G Hax (fun _ => eq_refl) W Hper _ _ c d (Hact a b Ha Hb) ltac:(lia) ltac:(lia)).
Qed.
Print Assumptions C26_C27_assembly_within_pattern.

(** The local matrices of MATIS: two entries of an element's closure are a location of the pattern. *)
Theorem C26_matis_pattern :
  forall (O : KnotOrd) g2 g3 maxint size dim (axes : Z -> axis O) user (LY : Z -> layout) dof (e0 : Z -> elem) (sizes : Z -> Z -> Z),
  setup_ok g2 g3 maxint size dim axes user LY -> 1 <= dof ->
  let G := fun r => grid_of dof (ly_node (LY r)) in
  forall r e, 0 <= r < size ->
  In e (rank_elements (e0 r) dim (ly_elem_start (LY r)) (ly_elem_width (LY r)) (sizes r)) ->
  let mapping := closure (elem_off dim axes e) (basis_nen dim axes) (gr_gstart (G r)) (gr_gwidth (G r)) in
  forall row col c d, In row mapping -> In col mapping -> 0 <= c < dof -> 0 <= d < dof ->
  In (dof * row + c, dof * col + d) (is_pattern dim axes (G r) dof).
Proof.
  intros O g2 g3 maxint size dim axes user LY dof e0 sizes S Hdof G r e Hr He mapping row col c d Hrow Hcol Hc Hd.
  rewrite (visited_box O g2 g3 maxint size dim axes user LY e0 sizes S r Hr) in He.
  assert (Hcov : forall a, In a (box zero3 (basis_nen dim axes)) ->
    in_box (gr_gstart (G r)) (gr_gwidth (G r)) (tadd (elem_off dim axes e) a))
    by (intros a Ha; exact (setup_cover O g2 g3 maxint size dim axes user LY dof S r e a Hr He Ha)).
  assert (Q : forall x, In x mapping -> exists a, In a (box zero3 (basis_nen dim axes)) /\
      x = index3d (gr_gstart (G r)) (gr_gwidth (G r)) (tadd (elem_off dim axes e) a)).
  { intros x Hx. unfold mapping, closure in Hx. apply in_map_iff in Hx. destruct Hx as (a & <- & Ha). exists a. split; auto.
    destruct a as [[a0 a1] a2]. unfold index3d, tadd. ring. }
  destruct (Q row Hrow) as (a & Ha & ->). destruct (Q col Hcol) as (b & Hb & ->). clear Q Hrow Hcol.
  unfold is_pattern. apply in_flat_map. exists (tadd (elem_off dim axes e) a). split; [apply In_box; auto|].
  apply in_prod; apply in_unblock; auto.
  - eexists; exists c. split; [left; reflexivity|]. auto.
  - eexists; exists d. split; [|split; [exact Hd|reflexivity]].
    unfold column_indices. apply in_map. apply In_box.
    pose proof (elem_coupled O g2 g3 maxint size dim axes user LY S r e Hr He a b Ha Hb) as HC.
    destruct (setup_form _ _ _ _ _ _ _ _ S) as (n & Hn & HL & Hdim & Hz & HP & HLY).
    pose proof (Hcov b Hb) as HB. destruct (tadd (elem_off dim axes e) b) as [[b0 b1] b2]. unfold in_box in HB |- *.
    assert (K : forall d, 0 <= d < 3 ->
       gr_gstart (G r) d <= coord (b0, b1, b2) d < gr_gstart (G r) d + gr_gwidth (G r) d ->
       let T := tadd (elem_off dim axes e) a in
       col_first dim axes (gr_gstart (G r)) T d <= coord (b0, b1, b2) d < col_first dim axes (gr_gstart (G r)) T d +
         (col_last dim axes (gr_gstart (G r)) (gr_gwidth (G r)) T d - col_first dim axes (gr_gstart (G r)) T d + 1)).
    { intros i Hi Hbi T. specialize (HC i Hi). unfold coupled in HC. fold T in HC. unfold col_first, col_last, dir_stencil.
      change (coord_of T i) with (coord T i).
      destruct (i <? dim) eqn:E; [|lia]. destruct HC as (k & Hk & HA & HBk).
      destruct (setup_wf _ _ _ _ _ _ _ _ S i ltac:(lia)) as (l & L & Hen).
      pose proof (coupling_local (axes i) l L Hen k _ _ Hk HA HBk) as Q. cbv beta in Q. lia. }
    pose proof (K 0 ltac:(lia)) as K0. pose proof (K 1 ltac:(lia)) as K1. pose proof (K 2 ltac:(lia)) as K2. clear K.
    cbv zeta in K0, K1, K2. cbn [coord] in K0, K1, K2.
    change (0 =? 0) with true in K0. change (1 =? 0) with false in K1. change (1 =? 1) with true in K1.
    change (2 =? 0) with false in K2. change (2 =? 1) with false in K2. cbv iota in K0, K1, K2.
    split; [apply K0; lia|]. split; [apply K1; lia|apply K2; lia].
Qed.
Print Assumptions C26_matis_pattern.

(** Preallocated row lengths: every set of distinct valid columns of a row fits. *)
Theorem C26_preallocation_suffices :
  forall (O : KnotOrd) g2 g3 maxint size dim (axes : Z -> axis O) user (LY : Z -> layout) dof,
  setup_ok g2 g3 maxint size dim axes user LY -> 1 <= dof ->
  let G := fun r => grid_of dof (ly_node (LY r)) in
  let N := fun d => if d <? dim then ax_nnp (axes d) else 1 in
  let total := N 0 * N 1 * N 2 in
  forall r t, 0 <= r < size -> in_box (gr_lstart (G r)) (gr_lwidth (G r)) t ->
  let lo := dof * off G r in let hi := dof * off G (r+1) in
  let cols := unblock dof (mat_cols dim axes size G r t) in
  let (dnz, onz) := prealloc dim axes dof (nlocal (G r)) total lo hi cols in
  forall L, NoDup L -> (forall c, In c L -> In c cols /\ 0 <= c < dof * total) ->
  Z.of_nat (length (filter (fun c => (lo <=? c) && (c <? hi)) L)) <= dnz /\
  Z.of_nat (length (filter (fun c => negb ((lo <=? c) && (c <? hi))) L)) <= onz.
Proof.
  intros O g2 g3 maxint size dim axes user LY dof S Hdof G N total r t Hr Ht lo hi cols.
  pose proof (setup_world _ _ _ _ _ _ _ _ S dof Hdof) as W. fold G in W. change (node_size dim axes) with N in W.
  destruct (prealloc dim axes dof (nlocal (G r)) total lo hi cols) as [dnz onz] eqn:E. intros L HL HI.
  assert (Hsz : off G size = total) by exact (off_size _ _ _ _ W).
  assert (Hle : off G (r+1) <= total) by (rewrite <- Hsz; apply (off_le _ _ _ _ W); lia).
  pose proof (off_S G r ltac:(lia)) as HS.
  pose proof (nlocal_nonneg _ _ _ _ W r Hr) as Hnl.
  pose proof (off_nonneg _ _ _ _ W r ltac:(lia)) as Ho.
  pose proof (prealloc_enough O dim axes dof (nlocal (G r)) total lo hi cols L) as K. rewrite E in K. cbn [fst snd] in K. apply K.
  - unfold lo, hi. rewrite HS. ring.
  - unfold lo. apply Z.mul_nonneg_nonneg; lia.
  - unfold hi. rewrite (Z.mul_comm dof). apply Z.mul_le_mono_nonneg_r; lia.
  - apply Z.mul_nonneg_nonneg; lia.
  - exact HL.
  - intros c Hc. rewrite (Z.mul_comm total). apply HI. exact Hc.
Qed.
Print Assumptions C26_preallocation_suffices.

(** IGAAxisInitUniform and IGAAxisInitBreaks produce knots with the periodic pattern. *)
Theorem C27_uniform_knots_are_periodic :
  forall (nu : Z) (Ui Uf : R) (C0 : Z) (U0 : Z -> R) (a a' : axis Rord),
  ax_periodic a = true -> axis_init_uniform nu Ui Uf C0 U0 a = (Ok, a') ->
  periodic_pattern (O:=Rord) (ax_p a') (ax_m a') (ax_nnp a') (ax_U a').
Proof.
  intros nu Ui Uf C0 U0 a a' Hper E. pose proof (C04_init_uniform_periodic nu Ui Uf C0 U0 a a' Hper E) as K. cbv zeta in K.
  destruct K as (_ & Ep & Hv & _ & _ & Hsh & _). destruct Hv as (Hp & _). rewrite <- Ep in *. intros i Hi Him Hlt. apply Rltb_true in Hlt. apply Rltb_true.
  replace (i + ax_nnp a' + 1) with (i + 1 + ax_nnp a') in Hlt by lia.
  rewrite (Hsh i ltac:(lia) ltac:(lia)), (Hsh (i+1) ltac:(lia) ltac:(lia)) in Hlt. apply Rplus_lt_reg_r in Hlt. exact Hlt.
Qed.
Print Assumptions C27_uniform_knots_are_periodic.

(** * C28 *)
(** The loop of ColumnIndices writes at most as many entries as the buffer holds, and every entry is an
    index of the column box [shape] ([start], [shape] of the unused directions are 0 and 1). *)
Theorem C28_stencil_fits_buffer :
  forall (O : KnotOrd) dim (axes : Z -> axis O) (start shape : Z -> Z) (A : triple),
  1 <= dim <= 3 ->
  (forall d, 0 <= d < dim -> exists l, ax_span (axes d) = Some l /\
     axis_wf (ax_periodic (axes d)) (ax_p (axes d)) (ax_m (axes d)) (ax_U (axes d)) (ax_nnp (axes d)) (ax_nel (axes d)) l) ->
  (forall d, 0 <= d < dim -> 0 <= coord A d <= ax_m (axes d) - ax_p (axes d) - 1) ->
  (forall d, dim <= d < 3 -> start d = 0 /\ shape d = 1) ->
  let cols := column_indices dim axes start shape A in
  Z.of_nat (length cols) <= fold_right Z.mul 1 (map (fun d => 2 * ax_p (axes d) + 1) (zseq 0 dim)) /\
  maxnnz dim axes = fold_right Z.mul 1 (map (fun d => 2 * ax_p (axes d) + 1) (zseq 0 dim)) /\
  forall x, In x cols -> 0 <= x < shape 0 * shape 1 * shape 2.
Proof.
  intros O dim axes start shape A Hdim Hax HA Hrest cols.
  pose proof (column_count dim axes Hdim Hax start shape A HA) as K. fold cols in K.
  assert (EM : maxnnz dim axes = fold_right Z.mul 1 (map (fun d => 2 * ax_p (axes d) + 1) (zseq 0 dim))) by (apply maxnnz_prod; auto).
  rewrite <- EM. split; [exact K|]. split; [reflexivity|]. clear EM.
  intros x Hx. unfold cols, column_indices in Hx. apply in_map_iff in Hx. destruct Hx as ([[i j] k] & <- & Hin).
  apply In_box in Hin. unfold in_box in Hin. rewrite index3d_lin. unfold tsub.
  assert (Q : forall d y, 0 <= d < 3 -> col_first dim axes start A d <= y < col_first dim axes start A d +
      (col_last dim axes start shape A d - col_first dim axes start A d + 1) -> 0 <= y - start d < shape d).
  { intros d y Hd Hy. unfold col_first, col_last in Hy. destruct (d <? dim) eqn:E; [lia|].
    destruct (Hrest d ltac:(lia)) as [-> ->]. lia. }
  destruct Hin as (H0 & H1 & H2).
  exact (lin_range shape _ _ _ (Q 0 i ltac:(lia) H0) (Q 1 j ltac:(lia) H1) (Q 2 k ltac:(lia) H2)).
Qed.
Print Assumptions C28_stencil_fits_buffer.

(** ** Examples *)
(** The two-dimensional grid on 6 processes (periodic x clamped with repeated knots), two fields:
    hypotheses met.  Row (0,0) of rank 0 couples, across the seam, with nodes owned by rank 2. *)
Example C26_C27_C28_example :
  setup_ok exact_g2 exact_g3 (2^31-1) 6 2 ex_axes [-1;-1] ex_LY /\
  (forall d, 0 <= d < 2 -> ax_periodic (ex_axes d) = true ->
     periodic_pattern (ax_p (ex_axes d)) (ax_m (ex_axes d)) (ax_nnp (ex_axes d)) (ax_U (ex_axes d))) /\
  map (fun d => mat_gstart 2 ex_axes (gr_lstart (ex_G 0)) d) [0; 1; 2] = [-2; 0; 0] /\
  map (fun d => mat_gwidth 2 ex_axes (gr_lstart (ex_G 0)) (gr_lwidth (ex_G 0)) d) [0; 1; 2] = [7; 5; 1] /\
  mat_cols 2 ex_axes 6 ex_G 0 (0, 0, 0) = [18; 19; 0; 1; 2; 20; 21; 3; 4; 5; 22; 23; 6; 7; 8] /\
  prealloc 2 ex_axes 1 9 56 0 9 (mat_cols 2 ex_axes 6 ex_G 0 (0, 0, 0)) = (9, 6) /\
  maxnnz 2 ex_axes = 25.
Proof.
  split; [exact ex_setup_ok|]. split; [|vm_compute; repeat split].
  intros d Hd Hp. assert (E : d = 0 \/ d = 1) by lia. destruct E as [-> | ->]; [clear Hp|vm_compute in Hp; discriminate].
  intros i Hi Him _. change (ax_m (ex_axes 0)) with 12 in Him. change (ax_p (ex_axes 0)) with 2 in Him.
  change (ax_nnp (ex_axes 0)) with 8 in Him. assert (i = 1) by lia. subst i. reflexivity.
Qed.

(** The hypothesis on periodic axes matters: IGAAxisSetKnots accepts a periodic axis whose knots do not
    repeat (p=2, a double knot at the left end only).  Functions 7 and 5 share the last element; 7 is
    wrapped to row 1, whose columns 0..3 do not include column 5 modulo 6. *)
Example C27_pattern_needed :
  let a := ex_axis true 10 [0;1;1;2;3;4;5;6;7;8;9] in
  axis_ready a /\ ends_nonempty (ax_p a) (ax_m a) (ax_U a) /\ ax_nnp a = 6 /\
  is_element (ax_p a) (ax_m a) (ax_U a) 7 /\ active (ax_p a) 7 7 /\ active (ax_p a) 5 7 /\ 7 mod 6 = 1 /\
  stencil (ax_periodic a) (ax_p a) (ax_m a) (ax_U a) 1 = (0, 3) /\
  (forall b, 0 <= b <= 3 -> b mod 6 <> 5).
Proof.
  cbv zeta. split.
  { apply (set_knots_wf (@mk_axis Zord true 2 1 (fun _ => 0) 1 1 (Some [0])) _ 10 (arr 0 [0;1;1;2;3;4;5;6;7;8;9])). reflexivity. }
  split; [split; reflexivity|]. split; [reflexivity|].
  split; [split; [vm_compute; split; discriminate|reflexivity]|].
  split; [vm_compute; split; discriminate|]. split; [vm_compute; split; discriminate|].
  split; [reflexivity|]. split; [reflexivity|].
  intros b Hb. rewrite Z.mod_small by lia. lia.
Qed.
