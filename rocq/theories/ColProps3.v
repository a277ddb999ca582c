(** C105: the nonzero structure of collocation matrices. *)
From Coq Require Import ZArith List Bool Lia Reals Lra Permutation.
From Coq Require Import ZifyBool ZifyNat.
From Verif Require Import Prelude RealOrd AxisModel AxisSpec AxisInitModel PartModel PartSpec PartProofs SetupModel SetupProofs SetupProps CollocProofs
  GridModel GridSpec GridProofs GridProofs2 GridSetup GridProps MatModel MatProofs2 ElemModel ElemProofs ElemProps AsmProofs
  BCModel BCSpec DrvModel DrvSpec DrvProofs RuleModel RuleProps MapModel TabModel BasModel IOProps ColModel ColSpec ColProofs ColProofs2 ColProofs3 ColProofs4 ColProps ColProps2.
From Verif Require Import ElemSpec Box.
Import ListNotations.
Open Scope Z_scope.

Section Pattern.
  Variables (g2 : Z -> Z -> Z -> Z) (g3 : Z -> Z -> Z -> Z -> Z) (maxint size dim : Z) (axes : Z -> axis Rord) (user : list Z)
            (LY : Z -> layout).
  Hypothesis Hset : col_setup_ok g2 g3 maxint size dim axes user LY.
  Variable CB : Z -> R -> Z -> Z -> (Z -> R) -> Z -> Z -> R.
  Variable BT : Z -> btable.
  Hypothesis HB : col_tables CB dim axes BT.
  Variable dof : Z.
  Hypothesis Hdof : 1 <= dof.
  Variables (e0 : Z -> elem) (sizes : Z -> Z -> Z).
  Let N := node_count dim axes.
  Let G := fun r => grid_of dof (ly_node (LY r)).
  Let elems := fun r => rank_elements (e0 r) dim (ly_elem_start (LY r)) (ly_elem_width (LY r)) (sizes r).
  Let nen := col_nen BT.
  Let first := col_off BT.
  Let mapping := fun r e => closure (first e) nen (gr_gstart (G r)) (gr_gwidth (G r)).
  Let rowmap := fun r e => row_map (gr_gstart (G r)) (gr_gwidth (G r)) e.

  Let HD : 1 <= dim <= 3 := cw_dim g2 g3 maxint size dim axes user LY Hset CB BT HB dof Hdof e0 sizes.
  Let W : grid_world size dof N G := cw_world g2 g3 maxint size dim axes user LY Hset CB BT HB dof Hdof e0 sizes.
  Let Hg := cw_Hg g2 g3 maxint size dim axes user LY Hset CB BT HB dof Hdof e0 sizes.
  Let Hnen := cw_nen g2 g3 maxint size dim axes user LY Hset CB BT HB dof Hdof e0 sizes.
  Let He : forall r, 0 <= r < size -> elems r = box (gr_lstart (G r)) (gr_lwidth (G r)) := cw_elems g2 g3 maxint size dim axes user LY Hset CB BT HB dof Hdof e0 sizes.
  Let Hcov := cw_cov g2 g3 maxint size dim axes user LY Hset CB BT HB dof Hdof e0 sizes.
  Let Hown := cw_own g2 g3 maxint size dim axes user LY Hset CB BT HB dof Hdof e0 sizes.
  Let Hn0 := cw_nen0 g2 g3 maxint size dim axes user LY Hset CB BT HB dof Hdof e0 sizes.

  Lemma off_x d x : 0 <= d < dim -> bq_offset (bt_q (BT d)) x =
    col_span (ax_p (axes d)) (ax_m (axes d)) (ax_U (axes d)) (ax_nnp (axes d)) x - ax_p (axes d) - images (ax_p (axes d)) (ax_m (axes d)) (ax_nnp (axes d)).
  Proof using All.
    intros Hd. pose proof (col_off_dir dim axes CB BT HB (x, x, x) d Hd ltac:(lia)) as E. unfold col_off in E.
    replace (coord (x, x, x) d) with x in E; [exact E|]. unfold coord. destruct (d =? 0); [auto|]. destruct (d =? 1); auto.
  Qed.
  Lemma same_box r d : 0 <= r < size -> 0 <= d < 3 ->
    col_mat_gstart dim BT (gr_lstart (G r)) d = gr_gstart (G r) d /\
    col_mat_gwidth dim BT (gr_lstart (G r)) (gr_lwidth (G r)) d = gr_gwidth (G r) d.
  Proof using All.
    intros Hr Hd. pose proof (col_facts g2 g3 maxint size dim axes user LY Hset r d Hr Hd) as F. cbv zeta in F.
    destruct F as (_ & _ & _ & _ & _ & _ & _ & _ & _ & _ & _ & F2 & F3).
    pose proof (Hnen d Hd) as En. unfold col_nen in En.
    unfold col_mat_gwidth, col_mat_gstart, col_stencil, G. cbn [grid_of gr_lstart gr_lwidth gr_gstart gr_gwidth].
    destruct (d <? dim) eqn:E.
    - cbn [fst snd]. rewrite En. rewrite !off_x by lia. specialize (F3 ltac:(lia)). lia.
    - rewrite F2 by lia. split; reflexivity.
  Qed.
  Lemma same_ltog r k : 0 <= r < size -> col_mat_ltog dim BT size G r k = lgmap size G r k.
  Proof using All.
    intros Hr. assert (E : ghost_indices (col_mat_grid dim BT (G r)) = ghost_indices (G r)).
    { unfold ghost_indices, col_mat_grid. cbn [gr_sizes gr_gstart gr_gwidth]. apply f_equal.
      unfold box. destruct (same_box r 0 Hr ltac:(lia)) as [-> ->]. destruct (same_box r 1 Hr ltac:(lia)) as [-> ->].
      destruct (same_box r 2 Hr ltac:(lia)) as [-> ->]. reflexivity. }
    unfold col_mat_ltog, lgmap. rewrite E. reflexivity.
  Qed.
  Lemma same_row r t : 0 <= r < size -> col_mat_row dim BT size G r t = lgmap size G r (rowmap r t).
  Proof using All.
    intros Hr. unfold col_mat_row. rewrite same_ltog by auto. f_equal. destruct t as [[i j] k].
    unfold index3d, rowmap, row_map, col_mat_grid. cbn [gr_gstart gr_gwidth].
    destruct (same_box r 0 Hr ltac:(lia)) as [-> ->]. destruct (same_box r 1 Hr ltac:(lia)) as [-> ->].
    destruct (same_box r 2 Hr ltac:(lia)) as [-> _]. ring.
  Qed.
  Lemma columns_of r t gs gw : 0 <= r < size -> In t (elems r) -> (forall d, 0 <= d < 3 -> gs d = gr_gstart (G r) d /\ gw d = gr_gwidth (G r) d) ->
    col_column_indices dim BT gs gw t = mapping r t.
  Proof using All.
    intros Hr Ht B.
    unfold col_column_indices.
    destruct (B 0 ltac:(lia)) as [S0 W0]. destruct (B 1 ltac:(lia)) as [S1 W1]. destruct (B 2 ltac:(lia)) as [S2 W2].
    assert (C : forall d, 0 <= d < 3 -> gr_gstart (G r) d <= first t d /\ first t d + nen d <= gr_gstart (G r) d + gr_gwidth (G r) d).
    { intros d Hd.
      assert (N1 : forall i, 0 <= i < 3 -> 1 <= nen i) by exact (cw_nen1 g2 g3 maxint size dim axes user LY Hset CB BT HB dof Hdof e0 sizes).
      pose proof (N1 0 ltac:(lia)). pose proof (N1 1 ltac:(lia)). pose proof (N1 2 ltac:(lia)).
      assert (A1 : in_box (gr_gstart (G r)) (gr_gwidth (G r)) (tadd (first t) (0, 0, 0))).
      { apply Hcov; auto. apply In_box. unfold in_box, zero3. fold nen. lia. }
      assert (A2 : in_box (gr_gstart (G r)) (gr_gwidth (G r)) (tadd (first t) (nen 0 - 1, nen 1 - 1, nen 2 - 1))).
      { apply Hcov; auto. apply In_box. unfold in_box, zero3. fold nen. lia. }
      unfold tadd, in_box in A1, A2. assert (Ed : d = 0 \/ d = 1 \/ d = 2) by lia. destruct Ed as [ -> | [ -> | -> ] ]; lia. }
    assert (F : forall d, 0 <= d < 3 -> col_cfirst dim BT gs t d = first t d /\ col_clast dim BT gs gw t d - col_cfirst dim BT gs t d + 1 = nen d).
    { intros d Hd. destruct (C d Hd) as [C1 C2]. destruct (B d Hd) as [B1 B2]. unfold col_cfirst, col_clast, col_stencil. change (coord_of t d) with (coord t d).
      destruct (d <? dim) eqn:E.
      - cbn [fst snd]. change (bq_offset (bt_q (BT d)) (coord t d)) with (first t d). change (bq_nen (bt_q (BT d))) with (nen d). lia.
      - destruct (col_off_unit dim axes CB BT HB t d ltac:(lia) ltac:(lia)) as [K1 K2]. fold first in K1. fold nen in K2. lia. }
    destruct (F 0 ltac:(lia)) as [F0 F0']. destruct (F 1 ltac:(lia)) as [F1 F1']. destruct (F 2 ltac:(lia)) as [F2 F2'].
    transitivity (map (index3d gs gw) (box (first t) nen)).
    { f_equal. unfold box. rewrite F0', F1', F2', F0, F1, F2. reflexivity. }
    rewrite box_from_zero, map_map. unfold mapping, closure. apply map_ext. intros [[a b] c]. unfold index3d, tadd.
    rewrite S0, S1, S2, W0, W1. ring.
  Qed.
  Lemma own_columns r t : 0 <= r < size -> In t (elems r) -> col_column_indices dim BT (gr_gstart (G r)) (gr_gwidth (G r)) t = mapping r t.
  Proof using All. intros Hr Ht. apply columns_of; auto. Qed.
  Lemma same_cols r t : 0 <= r < size -> In t (elems r) -> col_mat_cols dim BT size G r t = map (lgmap size G r) (mapping r t).
  Proof using All.
    intros Hr Ht. unfold col_mat_cols. rewrite (map_ext _ (lgmap size G r)) by (intros; apply same_ltog; auto). f_equal.
    apply columns_of; auto. intros d Hd. exact (same_box r d Hr Hd).
  Qed.

(** Each process adds entries to its own rows only, and the locations it preallocated for them are exactly the locations
    of those entries. *)
Theorem C105_pattern : forall Ke ins L0 r, 0 <= r < size ->
  (forall e i j x, In e (elems r) -> In (i, j, x) (col_mat_entries size G dof mapping rowmap Ke ins L0 r e) ->
     dof * off G r <= i < dof * off G (r + 1) /\ In (i, j) (col_mat_pattern dim BT size G dof r)) /\
  (forall i j, In (i, j) (col_mat_pattern dim BT size G dof r) ->
     exists e x, In e (elems r) /\ In (i, j, x) (col_mat_entries size G dof mapping rowmap Ke ins L0 r e)).
Proof.
  intros Ke ins L0 r Hr.
  assert (Row : forall e, In e (elems r) -> lgmap size G r (rowmap r e) = ao size G (lin N e) /\ off G r <= ao size G (lin N e) < off G (r+1) /\ 0 <= off G r).
  { intros e Hin. split; [exact (row_entry size dof N G W Hg nen first Hn0 elems He Hcov Hown r e Hr Hin)|].
    pose proof (own_in_N size dof N G W Hg nen first Hn0 elems He Hcov Hown r e Hr Hin) as HN.
    rewrite He in Hin by auto. apply In_box in Hin.
    destruct (C15_numbering_is_permutation size dof N G W) as (_ & _ & _ & _ & _ & _ & K & _). split; [apply K; auto|].
    apply (off_nonneg _ _ _ _ W). lia. }
  assert (Col : forall e y, In e (elems r) -> In y (mapping r e) -> 0 <= lgmap size G r y).
  { intros e y Hin Hy. unfold mapping, closure in Hy. apply in_map_iff in Hy. destruct Hy as (a & <- & Ha).
    assert (E : (let '(ia, ja, ka) := a in
        first e 0 + ia - gr_gstart (G r) 0 + (first e 1 + ja - gr_gstart (G r) 1) * gr_gwidth (G r) 0 +
        (first e 2 + ka - gr_gstart (G r) 2) * (gr_gwidth (G r) 0 * gr_gwidth (G r) 1)) = lin (gr_gwidth (G r)) (tsub (gr_gstart (G r)) (tadd (first e) a)))
      by (destruct a as [[x y] z]; unfold lin, tsub, tadd; ring).
    cbv zeta. rewrite E.
    rewrite (entry_node size dof N G W r (tadd (first e) a) Hr).
    - apply (ao_range _ _ _ _ W). apply lin_in_range. apply (modbox_in _ _ _ _ W).
    - intros d Hd. exact (Hg r d Hr Hd).
    - exact (Hcov r e a Hr Hin Ha). }
  split.
  - intros e i j x Hin Hx. unfold col_mat_entries in Hx.
    apply in_flat_map in Hx. destruct Hx as (c & Hc & Hx). apply in_flat_map in Hx. destruct Hx as (q & Hq & Hx).
    apply in_map_iff in Hx. destruct Hx as (d & Ed & Hd). injection Ed as E1 E2 _. apply in_zseq in Hc. apply in_zseq in Hd.
    destruct q as [b y]. apply in_combine_r in Hq. cbn [snd] in E2.
    destruct (Row e Hin) as (R1 & R2 & R3). pose proof (Col e y Hin Hq) as Cy. rewrite R1 in E1.
    assert (B : dof * off G r <= i < dof * off G (r+1)).
    { rewrite <- E1. set (z := ao size G (lin N e)) in *. clearbody z.
      assert (dof * off G r <= dof * z) by (apply Z.mul_le_mono_nonneg_l; lia).
      assert (dof * (z + 1) <= dof * off G (r+1)) by (apply Z.mul_le_mono_nonneg_l; lia). lia. }
    split; [exact B|]. unfold col_mat_pattern. apply filter_In. split.
    + apply in_flat_map. exists e. split; [rewrite <- He by auto; exact Hin|]. apply in_prod.
      * apply in_unblock; auto. eexists; exists c. split; [left; reflexivity|]. rewrite same_row, R1 by auto. split; lia.
      * apply in_unblock; auto. exists (lgmap size G r y), d. split; [rewrite same_cols by auto; apply in_map; auto|]. split; lia.
    + cbn [fst snd]. assert (0 <= dof * off G r) by (apply Z.mul_nonneg_nonneg; lia). assert (0 <= dof * lgmap size G r y) by (apply Z.mul_nonneg_nonneg; lia). lia.
  - intros i j Hij. unfold col_mat_pattern in Hij. apply filter_In in Hij. destruct Hij as [Hij _].
    apply in_flat_map in Hij. destruct Hij as (e & Hin & Hij). rewrite <- He in Hin by auto. apply in_prod_iff in Hij. destruct Hij as [H1 H2].
    apply in_unblock in H1; auto. apply in_unblock in H2; auto. destruct H1 as (n1 & c & [E1|[]] & Hc & ->). destruct H2 as (n2 & d & Hn2 & Hd & ->).
    rewrite same_row in E1 by auto. subst n1. rewrite same_cols in Hn2 by auto. apply in_map_iff in Hn2. destruct Hn2 as (y & <- & Hy).
    assert (Hq : exists b, In (b, y) (combine (zseq 0 (Z.of_nat (length (mapping r e)))) (mapping r e))).
    { generalize (mapping r e) Hy. intros l. clear. intros Hy.
      assert (K : forall l s, In y l -> exists b, In (b, y) (combine (zseq s (Z.of_nat (length l))) l)).
      { clear. induction l as [|a l IH]; intros s Hy; [destruct Hy|]. rewrite zseq_cons by (cbn [length]; lia). cbn [combine].
        destruct Hy as [->|Hy]; [exists s; left; reflexivity|]. destruct (IH (s+1) Hy) as (b & Hb). exists b. right.
        replace (Z.of_nat (length (a :: l)) - 1) with (Z.of_nat (length l)) by (cbn [length]; lia). exact Hb. }
      exact (K l 0 Hy). }
    destruct Hq as (b & Hb). exists e. eexists. split; [exact Hin|]. unfold col_mat_entries.
    apply in_flat_map. exists c. split; [apply in_zseq; lia|]. apply in_flat_map. exists (b, y). split; [exact Hb|].
    apply in_map_iff. exists d. split; [reflexivity|apply in_zseq; lia].
Qed.

(** The buffer of ColumnIndices holds the columns of a row. *)
Theorem C105_buffer : forall r t, 0 <= r < size -> In t (elems r) ->
  Z.of_nat (length (col_mat_cols dim BT size G r t)) <= maxnnz dim axes.
Proof.
  intros r t Hr Ht. rewrite same_cols, map_length by auto. unfold mapping, closure. rewrite map_length, len_box3 by exact Hn0.
  assert (P : forall d, 0 <= d < 3 -> 0 <= nen d <= (if d <? dim then 2 * ax_p (axes d) + 1 else 1)).
  { intros d Hd. pose proof (Hnen d Hd) as E. fold nen in E. rewrite E. destruct (d <? dim) eqn:L; [|lia].
    pose proof (cw_p g2 g3 maxint size dim axes user LY Hset CB BT HB dof Hdof e0 sizes d ltac:(lia)). lia. }
  pose proof (P 0 ltac:(lia)) as P0. pose proof (P 1 ltac:(lia)) as P1. pose proof (P 2 ltac:(lia)) as P2. unfold vol.
  unfold maxnnz.
  assert (E : dim = 1 \/ dim = 2 \/ dim = 3) by lia. destruct E as [E|[E|E]]; rewrite E in *.
  - change (0 <? 1) with true in P0. change (1 <? 1) with false in P1. change (2 <? 1) with false in P2. cbv iota in P0, P1, P2.
    change (zseq 0 1) with [0]. cbn [fold_left]. etransitivity; [apply (prod3_le _ _ _ _ _ _ P0 P1 P2)|]. lia.
  - change (0 <? 2) with true in P0. change (1 <? 2) with true in P1. change (2 <? 2) with false in P2. cbv iota in P0, P1, P2.
    change (zseq 0 2) with [0; 1]. cbn [fold_left]. etransitivity; [apply (prod3_le _ _ _ _ _ _ P0 P1 P2)|]. lia.
  - change (0 <? 3) with true in P0. change (1 <? 3) with true in P1. change (2 <? 3) with true in P2. cbv iota in P0, P1, P2.
    change (zseq 0 3) with [0; 1; 2]. cbn [fold_left]. etransitivity; [apply (prod3_le _ _ _ _ _ _ P0 P1 P2)|]. lia.
Qed.

(** The preallocated row lengths suffice. *)
Theorem C105_preallocation : forall r t, 0 <= r < size -> In t (elems r) ->
  let lo := dof * off G r in let hi := dof * off G (r+1) in
  let cols := unblock dof (col_mat_cols dim BT size G r t) in
  let (dnz, onz) := prealloc dim axes dof (nlocal (G r)) (vol N) lo hi cols in
  forall L, NoDup L -> (forall c, In c L -> In c cols /\ 0 <= c < dof * vol N) ->
  Z.of_nat (length (filter (fun c => (lo <=? c) && (c <? hi)) L)) <= dnz /\
  Z.of_nat (length (filter (fun c => negb ((lo <=? c) && (c <? hi))) L)) <= onz.
Proof.
  intros r t Hr Ht lo hi cols.
  destruct (prealloc dim axes dof (nlocal (G r)) (vol N) lo hi cols) as [dnz onz] eqn:E. intros L HL HI.
  assert (Hsz : off G size = vol N) by exact (off_size _ _ _ _ W).
  assert (Hle : off G (r+1) <= vol N) by (rewrite <- Hsz; apply (off_le _ _ _ _ W); lia).
  pose proof (off_S G r ltac:(lia)) as HS. pose proof (nlocal_nonneg _ _ _ _ W r Hr) as Hnl. pose proof (off_nonneg _ _ _ _ W r ltac:(lia)) as Ho.
  pose proof (prealloc_enough Rord dim axes dof (nlocal (G r)) (vol N) lo hi cols L) as K. rewrite E in K. cbn [fst snd] in K. apply K.
  - unfold lo, hi. rewrite HS. ring.
  - unfold lo. apply Z.mul_nonneg_nonneg; lia.
  - unfold hi. rewrite (Z.mul_comm dof). apply Z.mul_le_mono_nonneg_r; lia.
  - apply Z.mul_nonneg_nonneg; lia.
  - exact HL.
  - intros c Hc. rewrite (Z.mul_comm (vol N)). apply HI. exact Hc.
Qed.

(** MATIS: without periodic directions Stencil is asked for nodes of the grid only, and the entries lie in the pattern. *)
Theorem C105_matis : (forall d, 0 <= d < dim -> ax_periodic (axes d) = false) -> forall r, 0 <= r < size ->
  (forall d i, 0 <= d < dim -> In i (col_is_reads (G r) d) -> 0 <= i < bq_nel (bt_q (BT d))) /\
  forall e, In e (elems r) -> forall col c d, In col (mapping r e) -> 0 <= c < dof -> 0 <= d < dof ->
    In (dof * rowmap r e + c, dof * col + d) (col_is_pattern dim BT (G r) dof).
Proof.
  intros Hper r Hr. split.
  - intros d i Hd Hi. unfold col_is_reads in Hi. apply in_zseq in Hi.
    pose proof (col_facts g2 g3 maxint size dim axes user LY Hset r d Hr ltac:(lia)) as F. cbv zeta in F.
    destruct F as (_ & _ & F0 & F1 & F4 & F5 & F6 & _ & _ & _ & _ & _ & F3). specialize (F3 ltac:(lia)).
    destruct (col_wf g2 g3 maxint size dim axes user LY Hset d Hd) as (l & L & _ & _). pose proof L as (_ & HV & _ & _ & Hn). rewrite (Hper d Hd) in Hn.
    assert (Es : images (ax_p (axes d)) (ax_m (axes d)) (ax_nnp (axes d)) = 0) by (rewrite Hn; unfold images; replace (ax_m (axes d) - ax_p (axes d) - (ax_m (axes d) - ax_p (axes d))) with 0 by lia; reflexivity).
    assert (Eq : bq_nel (bt_q (BT d)) = ax_nnp (axes d)).
    { pose proof (HB d ltac:(lia)) as E. unfold setup_colloc in E. replace (d <? dim) with true in E by lia. unfold init_collocation in E. cbn [negb] in E. injection E as E. rewrite <- E. reflexivity. }
    rewrite Eq. unfold G in Hi. cbn [grid_of gr_gstart gr_gwidth] in Hi. rewrite Es in F3. destruct F3 as [F3 F3'].
    pose proof HV as (Hp & Hm & _).
    set (k1 := col_span _ _ _ _ (r_lstart _)) in *. set (k2 := col_span _ _ _ _ (r_lstart _ + _ - 1)) in *.
    assert (K : ax_p (axes d) <= k1 <= ax_m (axes d) - ax_p (axes d) - 1 /\ ax_p (axes d) <= k2 <= ax_m (axes d) - ax_p (axes d) - 1).
    { split; unfold k1, k2, col_span; apply (find_span_cases _ _ _ HV _ _ (span_of_some _ _ _ HV _)). }
    lia.
  - intros e Hin col c d Hcol Hc Hd. pose proof Hin as Hin'. rewrite He in Hin' by auto. apply In_box in Hin'.
    unfold col_is_pattern. apply in_flat_map. exists e. split.
    + apply In_box. assert (HS : subbox (gr_lstart (G r)) (gr_lwidth (G r)) (gr_gstart (G r)) (gr_gwidth (G r))) by exact (Hown r Hr).
      destruct e as [[i j] k]. unfold in_box, subbox in *.
      pose proof (HS 0 ltac:(lia)). pose proof (HS 1 ltac:(lia)). pose proof (HS 2 ltac:(lia)). lia.
    + apply in_prod; apply in_unblock; auto.
      * eexists; exists c. split; [left; reflexivity|]. split; [auto|]. f_equal. f_equal. unfold rowmap, row_map, index3d. destruct e as [[i j] k]. ring.
      * exists col, d. split; [|auto].
        rewrite (own_columns r e Hr Hin). exact Hcol.
Qed.
End Pattern.
Print Assumptions C105_pattern.
Print Assumptions C105_buffer.
Print Assumptions C105_preallocation.
Print Assumptions C105_matis.

(** MATIS on a periodic axis: Stencil reads basis->offset past its end.  Two linear functions around a circle, one process:
    the ghosted box has the nodes 0..2, the table the nodes 0..1. *)
Definition per_cLY (r : Z) : layout := col_layout_of 1 per_axes [1] (rank_coords [1] r).
Definition per_cBT (CB : Z -> R -> Z -> Z -> (Z -> R) -> Z -> Z -> R) (i : Z) : btable :=
  match setup_colloc CB 1 i true (ax_p (per_axes i)) (ax_m (per_axes i)) (ax_U (per_axes i)) (ax_nnp (per_axes i)) with
  | (_, Some T) => T
  | _ => no_btable
  end.
Lemma per_csetup_ok : col_setup_ok exact_g2 exact_g3 (2^31-1) 1 1 per_axes [-1] per_cLY.
Proof.
  destruct per_setup_ok as (H2 & H3 & H4 & H5 & _). split; [exact H2|]. split; [exact H3|]. split; [exact H4|]. split.
  - intros i Hi. destruct (H5 i Hi) as [A B]. split; [exact A|]. split; [exact B|]. cbn. unfold images. cbn. lia.
  - intros r Hr. unfold col_stage1. change (map (fun i => ax_nnp (per_axes i)) (zseq 0 1)) with [2].
    assert (r = 0) as -> by lia.
    assert (E : partition exact_g2 exact_g3 (2^31-1) 1 0 [2] [-1] = (Ok, [1], rank_coords [1] 0)) by (vm_compute; reflexivity). rewrite E. reflexivity.
Qed.
Lemma per_ctables CB : col_tables CB 1 per_axes (per_cBT CB).
Proof.
  intros i Hi. assert (E : i = 0 \/ i = 1 \/ i = 2) by lia. destruct E as [ -> | [ -> | -> ] ]; reflexivity.
Qed.
Lemma per_spans : col_span 1 4 per_knots 2 0 = 1 /\ col_span 1 4 per_knots 2 1 = 2.
Proof.
  assert (HV : valid_knots (O:=Rord) 1 4 per_knots).
  { destruct per_setup_ok as (_ & _ & _ & H5 & _). destruct (H5 0 ltac:(lia)) as [(l & _ & HV & _) _]. exact HV. }
  assert (P : forall i, 0 <= i < 2 -> col_point 1 4 per_knots 2 i = IZR i).
  { intros i Hi. unfold col_point. change (col_shift 1 4 2) with 0. rewrite Z.add_0_r, greville_eq by lia.
    change (wsum (fun j => per_knots (i + j + 1)) 1) with (wsum (fun j => per_knots (i + j + 1)) (0 + 1)).
    rewrite wsum_S, wsum_0 by lia. unfold per_knots. replace (i + 0 + 1 - 1) with i by lia. field. }
  assert (K : forall i, 0 <= i < 2 -> col_span 1 4 per_knots 2 i = i + 1).
  { intros i Hi. unfold col_span. rewrite P by auto.
    destruct (find_span_cases _ _ _ HV (IZR i) _ (span_of_some _ _ _ HV (IZR i))) as [B C].
    set (k := span_of 1 4 per_knots (IZR i)) in *. clearbody k.
    assert (Ek : k = 1 \/ k = 2) by lia. unfold per_knots in C.
    change (4-1-1+1) with 3 in C.
    destruct C as [C|[C|C]].
    all: repeat match goal with H : _ /\ _ |- _ => destruct H end; repeat match goal with
      | H : (IZR _ <= IZR _)%R |- _ => apply le_IZR in H | H : (IZR _ < IZR _)%R |- _ => apply lt_IZR in H end; try lia. }
  split; [exact (K 0 ltac:(lia))|exact (K 1 ltac:(lia))].
Qed.
Theorem C105_matis_periodic_refuted :
  exists axes LY BT i,
    col_setup_ok exact_g2 exact_g3 (2^31-1) 1 1 axes [-1] LY /\ col_tables (fun _ _ _ _ _ _ _ => 0%R) 1 axes BT /\
    In i (col_is_reads (grid_of 1 (ly_node (LY 0))) 0) /\ ~ (0 <= i < bq_nel (bt_q (BT 0))).
Proof.
  exists per_axes, per_cLY, (per_cBT (fun _ _ _ _ _ _ _ => 0%R)), 2.
  split; [exact per_csetup_ok|]. split; [apply per_ctables|].
  pose proof (col_facts _ _ _ _ _ _ _ _ per_csetup_ok 0 0 ltac:(lia) ltac:(lia)) as F. cbv zeta in F.
  destruct F as (_ & _ & F0 & F1 & F4 & _ & _ & _ & S1 & S2 & _ & _ & F3). specialize (F3 ltac:(lia)).
  assert (A1 : ly_elem_start (per_cLY 0) 0 = 0) by reflexivity. assert (A2 : ly_elem_width (per_cLY 0) 0 = 2) by reflexivity.
  rewrite <- S1, <- S2, A1, A2 in F3. change (0 + 2 - 1) with 1 in F3.
  destruct per_spans as [K0 K1].
  change (ax_p (per_axes 0)) with 1 in F3. change (ax_m (per_axes 0)) with 4 in F3. change (ax_U (per_axes 0)) with per_knots in F3. change (ax_nnp (per_axes 0)) with 2 in F3.
  rewrite K0, K1 in F3. change (images 1 4 2) with 0 in F3.
  split; [|change (bq_nel (bt_q (per_cBT (fun _ _ _ _ _ _ _ => 0%R) 0))) with 2; lia].
  unfold col_is_reads. apply in_zseq. cbn [grid_of gr_gstart gr_gwidth]. lia.
Qed.
Print Assumptions C105_matis_periodic_refuted.

(** The first process of the example of C104 preallocates the locations of its three rows. *)
Example C105_example : forall CB (e0 : elem) i j,
  In (i, j) (col_mat_pattern 1 (ex_cBT CB) 2 (fun r => grid_of 1 (ly_node (ex_cLY r))) 1 0) ->
  0 <= i < off (fun r => grid_of 1 (ly_node (ex_cLY r))) 1.
Proof.
  intros CB e0 i j H.
  destruct (C105_pattern _ _ _ _ _ _ _ _ ex_csetup_ok CB _ (ex_ctables CB) 1 ltac:(lia) (fun _ => e0) (fun _ _ => 0)
    (fun _ _ _ _ => 0%R) [] (fun _ _ => 0%R) 0 ltac:(lia)) as [K1 K2].
  destruct (K2 i j H) as (e & x & He & Hx). destruct (K1 e i j x He Hx) as [B _]. change (0 + 1) with 1 in B.
  assert (E : off (fun r => grid_of 1 (ly_node (ex_cLY r))) 0 = 0) by reflexivity. cbv beta in B. lia.
Qed.
