(** C131: the nonzero structure of the matrix of the element-by-element preconditioner. *)
From Coq Require Import ZArith List Bool Lia Reals.
From Coq Require Import ZifyBool ZifyNat.
From Verif Require Import Prelude AxisModel AxisSpec AxisInitModel AxisProps PartModel PartSpec PartProofs PartProps SetupModel SetupProofs SetupProps Box GridModel GridSpec GridProofs GridProofs2
  GridSetup GridProps ElemModel ElemSpec ElemProofs AsmProofs ElemProps MatModel MatSpec MatProofs MatProofs2 MatProps PcModel BpSpec EpModel.
Import ListNotations.
Open Scope Z_scope.

Lemma in_ebe_pattern size s e pat i j : In (i,j) (ebe_pattern size s e pat) <-> In (i,j) pat /\ (1 < size -> s <= j < e).
Proof.
  unfold ebe_pattern. destruct (1 <? size) eqn:E.
  - unfold diagonal_block. rewrite map_map. cbn [fst snd]. rewrite in_map_iff. split.
    + intros ([a b] & E1 & H). apply filter_In in H. destruct H as [H K]. cbn [fst snd] in *. injection E1 as Ei Ej.
      replace a with i in H by lia. replace b with j in H by lia. split; [exact H|]. lia.
    + intros [H K]. exists (i,j). cbn [fst snd]. split; [f_equal; lia|]. apply filter_In. cbn [snd]. split; [exact H|]. specialize (K ltac:(lia)). lia.
  - split; [intros H; split; [exact H|lia]|tauto].
Qed.

Lemma in_owned lg bs s e idx x : 0 < bs -> In x (owned_indices lg bs s e idx) ->
  exists k c, In k idx /\ 0 <= c < bs /\ s <= lg k < e /\ x = bs * lg k + c.
Proof.
  intros Hb H. unfold owned_indices in H. apply in_flat_map in H. destruct H as (k & Hk & H). cbv zeta in H.
  destruct (_ && _) eqn:E in H; [|destruct H]. apply in_map_iff in H. destruct H as (c & <- & Hc). apply in_zseq in Hc.
  exists k, c. split; [exact Hk|]. split; [lia|]. split; [lia|]. ring.
Qed.

(** Every entry PCSetUp_EBE adds has a place in its matrix; the matrix has no other places than those of A, and none
    in columns of other processes. *)
Theorem C131_entries_fit :
  forall (O : KnotOrd) g2 g3 maxint size dim (axes : Z -> axis O) user (LY : Z -> layout) dof (e0 : Z -> elem) (sizes : Z -> Z -> Z),
  setup_ok g2 g3 maxint size dim axes user LY -> 1 <= dof ->
  (forall d, 0 <= d < dim -> ax_periodic (axes d) = true ->
     periodic_pattern (ax_p (axes d)) (ax_m (axes d)) (ax_nnp (axes d)) (ax_U (axes d))) ->
  let G := fun r => grid_of dof (ly_node (LY r)) in
  let elems := fun r => rank_elements (e0 r) dim (ly_elem_start (LY r)) (ly_elem_width (LY r)) (sizes r) in
  let mapping := fun r e => closure (elem_off dim axes e) (basis_nen dim axes) (gr_gstart (G r)) (gr_gwidth (G r)) in
  forall r, 0 <= r < size ->
  let s := dof * off G r in let t := dof * off G (r+1) in
  let stored := ebe_pattern size s t (mat_pattern dim axes size G dof r) in
  (forall i j, written (ebe_blocks size G dof elems mapping [r]) i j -> s <= i < t /\ In (i, j) stored) /\
  (forall i j, In (i, j) stored -> In (i, j) (mat_pattern dim axes size G dof r) /\ (1 < size -> s <= j < t)).
Proof.
  intros O g2 g3 maxint size dim axes user LY dof e0 sizes S Hdof Hper G elems mapping r Hr s t stored.
  split; [|intros i j H; apply in_ebe_pattern in H; exact H].
  intros i j (b & Hb & Hi & Hj). unfold ebe_blocks in Hb. cbn [flat_map] in Hb. rewrite app_nil_r in Hb.
  apply in_map_iff in Hb. destruct Hb as (e & <- & He). unfold elems in He.
  rewrite (visited_box O g2 g3 maxint size dim axes user LY e0 sizes S r Hr) in He.
  set (N := fun d => if d <? dim then ax_nnp (axes d) else 1).
  pose proof (setup_world _ _ _ _ _ _ _ _ S dof Hdof) as W. fold G in W. change (node_size dim axes) with N in W.
  assert (Hax : forall d, 0 <= d < dim -> exists l, wf (axes d) l /\ ends_nonempty (ax_p (axes d)) (ax_m (axes d)) (ax_U (axes d)))
    by (intros d Hd; apply (setup_wf _ _ _ _ _ _ _ _ S d Hd)).
  assert (Hg : forall d, 0 <= d < 3 -> - N d <= gr_gstart (G r) d).
  { intros d Hd. pose proof (setup_node_facts _ _ _ _ _ _ _ _ S r d Hr Hd) as (A & B & C & _).
    unfold G; cbn [grid_of gr_gstart]. unfold node_size in B. fold (N d) in B. lia. }
  assert (Hcov : forall a, In a (box zero3 (basis_nen dim axes)) -> in_box (gr_gstart (G r)) (gr_gwidth (G r)) (tadd (elem_off dim axes e) a))
    by (intros a Ha; exact (setup_cover O g2 g3 maxint size dim axes user LY dof S r e a Hr He Ha)).
  pose proof (elem_coupled O g2 g3 maxint size dim axes user LY S r e Hr He) as Hact.
  assert (DD : forall x, dof * x / dof = x) by (intros x; rewrite Z.mul_comm; apply Z.div_mul; lia).
  rewrite !DD in Hi, Hj.
  apply in_owned in Hi; [|lia]. destruct Hi as (pm & c & Hpm & Hc & Oi & Ei). apply in_owned in Hj; [|lia]. destruct Hj as (qm & d & Hqm & Hd & Oj & Ej).
  unfold mapping, closure in Hpm, Hqm.
  apply in_map_iff in Hpm. destruct Hpm as (a & Epm & Ha). apply in_map_iff in Hqm. destruct Hqm as (a' & Eqm & Ha').
  assert (Q : forall a x, (let '(ia, ja, ka) := a in
      elem_off dim axes e 0 + ia - gr_gstart (G r) 0 + (elem_off dim axes e 1 + ja - gr_gstart (G r) 1) * gr_gwidth (G r) 0 +
      (elem_off dim axes e 2 + ka - gr_gstart (G r) 2) * (gr_gwidth (G r) 0 * gr_gwidth (G r) 1)) = x ->
      In a (box zero3 (basis_nen dim axes)) -> lgmap size G r x = ao size G (lin N (modbox N (tadd (elem_off dim axes e) a)))).
  { intros u y Eu Hu. rewrite <- (entry_node size dof N G W r _ Hr Hg (Hcov u Hu)). f_equal. rewrite <- Eu.
    destruct u as [[u0 u1] u2]. unfold lin, tsub, tadd. reflexivity. }
  rewrite (Q a pm Epm Ha) in Oi, Ei. rewrite (Q a' qm Eqm Ha') in Oj, Ej.
  destruct (pattern_covered size dim dof axes N G Hax (fun _ => eq_refl) W Hper _ _ c d (Hact a a' Ha Ha') ltac:(lia) ltac:(lia)) as (q & Hq & Rq & P).
  rewrite <- Ei in Rq. rewrite <- Ei, <- Ej in P.
  assert (RNG : forall y A u v, y = dof * A + u -> 0 <= u < dof -> off G r <= A < v -> dof * off G r <= y < dof * v).
  { clear. intros y A u v -> Hu [H1 H2]. assert (dof * off G r <= dof * A) by (apply Z.mul_le_mono_nonneg_l; lia).
    assert (dof * (A+1) <= dof * v) by (apply Z.mul_le_mono_nonneg_l; lia). lia. }
  pose proof (RNG _ _ _ _ Ei Hc Oi) as Ri. pose proof (RNG _ _ _ _ Ej Hd Oj) as Rj. clear RNG.
  assert (q = r).
  { destruct (Z.lt_trichotomy q r) as [L|[L|L]]; [|exact L|]; exfalso.
    - pose proof (off_le _ _ _ _ W (q+1) r ltac:(lia) ltac:(lia)) as K. assert (dof * off G (q+1) <= dof * off G r) by (apply Z.mul_le_mono_nonneg_l; lia). lia.
    - pose proof (off_le _ _ _ _ W (r+1) q ltac:(lia) ltac:(lia)) as K. assert (dof * off G (r+1) <= dof * off G q) by (apply Z.mul_le_mono_nonneg_l; lia). lia. }
  subst q. split; [exact Ri|]. apply in_ebe_pattern. split; [exact P|]. intros _. exact Rj.
Qed.
Print Assumptions C131_entries_fit.

(** The same in tiles, for format "baij". *)
Theorem C131_tiles_fit :
  forall (O : KnotOrd) g2 g3 maxint size dim (axes : Z -> axis O) user (LY : Z -> layout) dof (e0 : Z -> elem) (sizes : Z -> Z -> Z),
  setup_ok g2 g3 maxint size dim axes user LY -> 1 <= dof ->
  (forall d, 0 <= d < dim -> ax_periodic (axes d) = true ->
     periodic_pattern (ax_p (axes d)) (ax_m (axes d)) (ax_nnp (axes d)) (ax_U (axes d))) ->
  let G := fun r => grid_of dof (ly_node (LY r)) in
  let elems := fun r => rank_elements (e0 r) dim (ly_elem_start (LY r)) (ly_elem_width (LY r)) (sizes r) in
  let mapping := fun r e => closure (elem_off dim axes e) (basis_nen dim axes) (gr_gstart (G r)) (gr_gwidth (G r)) in
  forall r, 0 <= r < size ->
  let stored := ebe_tiles size dof (dof * off G r) (dof * off G (r+1)) (mat_pattern dim axes size G dof r) in
  (forall I J, tile_written dof (ebe_blocks size G dof elems mapping [r]) I J -> In (I, J) stored) /\
  (forall I J, In (I, J) stored -> 1 < size -> off G r <= J < off G (r+1)).
Proof.
  intros O g2 g3 maxint size dim axes user LY dof e0 sizes S Hdof Hper G elems mapping r Hr stored.
  assert (DD : forall x, dof * x / dof = x) by (intros x; rewrite Z.mul_comm; apply Z.div_mul; lia). unfold stored, ebe_tiles. rewrite !DD.
  pose proof (C131_entries_fit O g2 g3 maxint size dim axes user LY dof e0 sizes S Hdof Hper r Hr) as C. cbv zeta in C.
  fold G in C. fold elems in C. fold mapping in C. destruct C as [C D]. split.
  - intros I J (i & j & Hw & <- & <-). apply C in Hw. destruct Hw as [_ Hw]. apply D in Hw. destruct Hw as [Hp Ho]. apply in_ebe_pattern. split.
    + apply (in_map (fun ij => (fst ij / dof, snd ij / dof)) _ (i,j) Hp).
    + intros Hs. specialize (Ho Hs). revert Ho Hdof. generalize (off G r) (off G (r+1)). clear. intros a b [B1 B2] Hdof.
      split; [apply Z.div_le_lower_bound; lia|apply Z.div_lt_upper_bound; lia].
  - intros I J H Hs. apply in_ebe_pattern in H. apply (proj2 H Hs).
Qed.
Print Assumptions C131_tiles_fit.

(** Six processes, one periodic direction, two components: the hypotheses hold; row 0 of process 0 keeps the 18 columns
    of the process and drops 12 columns of the neighbour; the first element has owned unknowns. *)
Example C131_example :
  setup_ok exact_g2 exact_g3 (2^31-1) 6 2 ex_axes [-1;-1] ex_LY /\
  (forall d, 0 <= d < 2 -> ax_periodic (ex_axes d) = true ->
     periodic_pattern (ax_p (ex_axes d)) (ax_m (ex_axes d)) (ax_nnp (ex_axes d)) (ax_U (ex_axes d))) /\
  (let row0 := filter (fun ij => fst ij =? 0) (mat_pattern 2 ex_axes 6 ex_G 2 0) in
   length row0 = 30%nat /\ map snd (ebe_pattern 6 0 18 row0) = zseq 0 18) /\
  hd [] (ebe_blocks 6 ex_G 2 (fun r => box (ly_elem_start (ex_LY r)) (ly_elem_width (ex_LY r)))
    (fun r e => closure (elem_off 2 ex_axes e) (basis_nen 2 ex_axes) (gr_gstart (ex_G r)) (gr_gwidth (ex_G r))) [0]) = zseq 0 18.
Proof.
  pose proof C26_C27_C28_example as (A & B & _). split; [exact A|]. split; [exact B|]. vm_compute. repeat split.
Qed.
