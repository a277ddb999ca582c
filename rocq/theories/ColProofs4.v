(** Collocation: set-up and assembly together. *)
From Coq Require Import ZArith List Bool Lia Reals Lra Permutation.
From Coq Require Import ZifyBool ZifyNat.
From Verif Require Import Prelude RealOrd AxisModel AxisSpec AxisInitModel PartModel PartSpec PartProofs SetupModel SetupProofs SetupProps CollocProofs
  GridModel GridSpec GridProofs GridProofs2 GridSetup GridProps ElemModel ElemProofs ElemProps AsmProofs
  BCModel BCSpec DrvModel DrvSpec DrvProofs RuleModel MapModel TabModel ColModel ColSpec ColProofs ColProofs2 ColProofs3.
From Verif Require Import ElemSpec Box.
Import ListNotations.
Open Scope Z_scope.

Lemma point_form_cases dim nnp visit t : point_form dim nnp visit t = Interior \/
  exists axis side, point_form dim nnp visit t = Face axis side /\ In (axis, side) (faces dim) /\ visit axis side = true /\
    coord t axis = (if side =? 0 then 0 else nnp axis - 1).
Proof.
  unfold point_form, pieces.
  destruct (filter _ (faces dim)) as [|[axis side] l] eqn:E; [left; reflexivity|]. right. exists axis, side.
  cbn [map app hd fst snd]. split; [reflexivity|].
  assert (K : In (axis, side) ((axis, side) :: l)) by (left; auto). rewrite <- E in K. apply filter_In in K. cbn [fst snd] in K.
  destruct K as [K1 K2]. apply andb_prop in K2. destruct K2 as [K2 K3]. split; [auto|]. split; [auto|]. lia.
Qed.
Lemma in_faces dim axis side : In (axis, side) (faces dim) <-> 0 <= axis < dim /\ (side = 0 \/ side = 1).
Proof.
  unfold faces. rewrite in_flat_map. split.
  - intros (d & Hd & H). apply in_zseq in Hd. cbn in H. destruct H as [H|[H|[]]]; injection H as <- <-; lia.
  - intros [H1 H2]. exists axis. split; [apply in_zseq; lia|]. cbn. destruct H2 as [ -> | -> ]; auto.
Qed.
Lemma point_form_axis dim nnp visit t axis side : dim <= 3 -> point_form dim nnp visit t = Face axis side -> 0 <= axis < 3.
Proof.
  intros Hd E. destruct (point_form_cases dim nnp visit t) as [E'|(a & s & E' & Hin & _)]; rewrite E' in E; [discriminate|].
  injection E as <- <-. apply in_faces in Hin. lia.
Qed.

Section World.
  Variables (g2 : Z -> Z -> Z -> Z) (g3 : Z -> Z -> Z -> Z -> Z) (maxint size dim : Z) (axes : Z -> axis Rord) (user : list Z)
            (LY : Z -> layout).
  Hypothesis S : col_setup_ok g2 g3 maxint size dim axes user LY.
  Variable CB : Z -> R -> Z -> Z -> (Z -> R) -> Z -> Z -> R.
  Variable BT : Z -> btable.
  Hypothesis HB : col_tables CB dim axes BT.
  Variable dof : Z.
  Hypothesis Hdof : 1 <= dof.
  Variables (e0 : Z -> elem) (sizes : Z -> Z -> Z).
  Let N := node_count dim axes.
  Let G := fun r => grid_of dof (ly_node (LY r)).
  Let elems := fun r => rank_elements (e0 r) dim (ly_elem_start (LY r)) (ly_elem_width (LY r)) (sizes r).
  Let nen := col_nen BT.
  Let first := col_off BT.

  Lemma cw_world : grid_world size dof N G.
  Proof using All. exact (col_world g2 g3 maxint size dim axes user LY S dof Hdof). Qed.
  Lemma cw_dim : 1 <= dim <= 3.
  Proof using All. exact (col_dim g2 g3 maxint size dim axes user LY S). Qed.
  Lemma cw_Hg r d : 0 <= r < size -> 0 <= d < 3 -> - N d <= gr_gstart (G r) d.
  Proof using All. intros Hr Hd. pose proof (col_facts g2 g3 maxint size dim axes user LY S r d Hr Hd) as F. cbv zeta in F. apply F. Qed.
  Lemma cw_p d : 0 <= d < dim -> 1 <= ax_p (axes d).
  Proof using All. intros Hd. destruct (col_wf g2 g3 maxint size dim axes user LY S d Hd) as (l & (_ & (Hp & _) & _) & _). exact Hp. Qed.
  Lemma cw_nen d : 0 <= d < 3 -> nen d = if d <? dim then ax_p (axes d) + 1 else 1.
  Proof using All.
    intros Hd. pose proof cw_dim. unfold nen. destruct (d <? dim) eqn:E.
    - exact (col_nen_dir dim axes CB BT HB d ltac:(lia) ltac:(lia)).
    - exact (proj2 (col_off_unit dim axes CB BT HB (0,0,0) d ltac:(lia) ltac:(lia))).
  Qed.
  Lemma cw_nen1 d : 0 <= d < 3 -> 1 <= nen d.
  Proof using All. intros Hd. rewrite cw_nen by auto. destruct (d <? dim) eqn:E; [|lia]. pose proof (cw_p d ltac:(lia)). lia. Qed.
  Lemma cw_nen0 d : 0 <= d < 3 -> 0 <= nen d.
  Proof using All. intros Hd. pose proof (cw_nen1 d Hd). lia. Qed.
  Lemma cw_elems r : 0 <= r < size -> elems r = box (gr_lstart (G r)) (gr_lwidth (G r)).
  Proof using All.
    intros Hr. pose proof cw_dim as HD. unfold elems.
    assert (F : forall d, 0 <= d < 3 -> ext 0 dim (ly_elem_start (LY r)) d = gr_lstart (G r) d /\ ext 1 dim (ly_elem_width (LY r)) d = gr_lwidth (G r) d).
    { intros d Hd. pose proof (col_facts g2 g3 maxint size dim axes user LY S r d Hr Hd) as F. cbv zeta in F. unfold ext, G. cbn [grid_of gr_lstart gr_lwidth].
      destruct F as (_ & _ & _ & _ & _ & _ & _ & _ & F1 & F2 & _ & F3 & _). destruct (d <? dim) eqn:E; [auto|].
      rewrite F3 by lia. split; reflexivity. }
    rewrite rank_elements_box; [|auto|].
    - unfold box. destruct (F 0 ltac:(lia)) as [-> ->]. destruct (F 1 ltac:(lia)) as [-> ->]. destruct (F 2 ltac:(lia)) as [-> ->]. reflexivity.
    - intros i Hi. pose proof (col_facts g2 g3 maxint size dim axes user LY S r i Hr ltac:(lia)) as K. cbv zeta in K. lia.
  Qed.
  Lemma cw_own r : 0 <= r < size -> subbox (gr_lstart (G r)) (gr_lwidth (G r)) (gr_gstart (G r)) (gr_gwidth (G r)).
  Proof using All.
    intros Hr d Hd. pose proof (col_facts g2 g3 maxint size dim axes user LY S r d Hr Hd) as F. cbv zeta in F. unfold G. cbn [grid_of gr_lstart gr_lwidth gr_gstart gr_gwidth].
    lia.
  Qed.
  Lemma cw_cov r e a : 0 <= r < size -> In e (elems r) -> In a (box zero3 nen) ->
    in_box (gr_gstart (G r)) (gr_gwidth (G r)) (tadd (first e) a).
  Proof using All.
    intros Hr He Ha. rewrite cw_elems in He by auto. apply In_box in He. apply In_box in Ha. pose proof cw_dim as HD.
    assert (K : forall d x, 0 <= d < 3 -> gr_lstart (G r) d <= coord e d < gr_lstart (G r) d + gr_lwidth (G r) d -> 0 <= x < nen d ->
       gr_gstart (G r) d <= first e d + x < gr_gstart (G r) d + gr_gwidth (G r) d).
    { intros d x Hd Hc Hx. rewrite cw_nen in Hx by auto.
      pose proof (col_facts g2 g3 maxint size dim axes user LY S r d Hr Hd) as F. cbv zeta in F. unfold G in *. cbn [grid_of gr_lstart gr_lwidth gr_gstart gr_gwidth] in *.
      destruct F as (_ & _ & _ & _ & _ & _ & _ & _ & _ & _ & F1 & F2 & _). destruct (d <? dim) eqn:E.
      - unfold first. rewrite (col_off_dir dim axes CB BT HB e d) by lia.
        specialize (F1 ltac:(lia) (coord e d)
          (col_span (ax_p (axes d)) (ax_m (axes d)) (ax_U (axes d)) (ax_nnp (axes d)) (coord e d) - ax_p (axes d) + x) Hc).
        unfold active in F1. specialize (F1 ltac:(lia)). lia.
      - unfold first. destruct (col_off_unit dim axes CB BT HB e d ltac:(lia) ltac:(lia)) as [-> _]. rewrite F2 by lia. cbn [unit_range r_gstart r_gwidth]. lia. }
    destruct e as [[i j] k], a as [[x y] z]. unfold in_box, zero3 in *.
    cbn [tadd].
    pose proof (K 0 x ltac:(lia)) as K0. pose proof (K 1 y ltac:(lia)) as K1. pose proof (K 2 z ltac:(lia)) as K2.
    change (coord (i,j,k) 0) with i in K0. change (coord (i,j,k) 1) with j in K1. change (coord (i,j,k) 2) with k in K2.
    split; [apply K0; lia|]. split; [apply K1; lia|apply K2; lia].
  Qed.
  Lemma cw_owner t : in_box zero3 N t -> exists r, 0 <= r < size /\ In t (elems r).
  Proof using All.
    intros Ht. destruct cw_world as (_ & _ & _ & _ & HU). destruct (HU t Ht) as (r & (Hr & H) & _). exists r. split; [auto|].
    rewrite cw_elems by auto. apply In_box. exact H.
  Qed.
  Lemma cw_nnp_eq d : 0 <= d < dim -> N d = ax_nnp (axes d).
  Proof using All. intros Hd. unfold N, node_count. replace (d <? dim) with true by lia. reflexivity. Qed.

  Variable visit : Z -> Z -> bool.
  Lemma cw_npts t : tab_npts BT t (point_form dim N visit t) = 1.
  Proof using All. pose proof cw_dim. apply (col_npts CB dim axes BT HB). intros axis side E. eapply point_form_axis; [|exact E]. lia. Qed.
  Lemma cw_JW t : col_JW dim BT t (point_form dim N visit t) 0 = 1%R.
  Proof using All.
    pose proof cw_dim.
    assert (Hf : forall axis side, point_form dim N visit t = Face axis side -> 0 <= axis < 3) by (intros axis side E; eapply point_form_axis; [|exact E]; lia).
    apply (col_JW_one CB dim axes BT HB); auto; apply (col_point_index CB dim axes BT HB); auto.
  Qed.
End World.
