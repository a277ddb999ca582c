(** C106: control points at a collocation point. *)
From Coq Require Import ZArith List Bool Lia Reals Lra Permutation.
From Coq Require Import ZifyBool ZifyNat.
From Verif Require Import Prelude RealOrd AxisModel AxisSpec AxisInitModel PartModel PartSpec PartProofs SetupModel SetupProofs SetupProps CollocProofs
  GridModel GridSpec GridProofs GridProofs2 GridSetup GridProps MatModel MatProofs2 ElemModel ElemProofs ElemProps AsmProofs
  BCModel BCSpec DrvModel DrvSpec DrvProofs RuleModel RuleProps MapModel TabModel BasModel IOProps ColModel ColSpec ColProofs ColProofs2 ColProofs3 ColProofs4 ColProps ColProps2 ColProps3.
From Verif Require Import ElemSpec Box.
Import ListNotations.
Open Scope Z_scope.

Lemma last_tile P N : 1 <= P -> 0 <= N -> dist_s P N (P-1) + dist_n P N (P-1) = N.
Proof. intros HP HN. pose proof (dist_tiles P N HP HN) as T. unfold tiles in T. destruct T as (_ & _ & _ & _ & T). exact T. Qed.
Lemma last_span p m (U : Z -> R) : valid_knots (O:=Rord) p m U -> ends_nonempty (O:=Rord) p m U -> col_span p m U (m-p) (m-p-1) = m-p-1.
Proof.
  intros HV [E1 _]. pose proof HV as (Hp & Hm & _). pose proof (U_mono p m U HV) as HM. apply (proj1 (klt_R _ _)) in E1.
  unfold col_span, col_point. replace (col_shift p m (m-p)) with 0.
  2:{ unfold col_shift. replace (m - p - 1 + 1 - (m-p)) with 0 by lia. reflexivity. }
  rewrite Z.add_0_r. set (u := greville (m-p-1) p U).
  assert (B1 : (U (m-p)%Z <= u)%R).
  { pose proof (greville_bounds p m U HV (m-p-1) ltac:(lia) ltac:(lia)) as [B _]. replace (m-p-1+1) with (m-p) in B by lia. exact B. }
  destruct (find_span_cases p m U HV u _ (span_of_some p m U HV u)) as [B C]. set (k := span_of p m U u) in *. clearbody k u.
  pose proof (HM (p+1) (m-p) ltac:(lia) ltac:(lia) ltac:(lia)) as M1.
  destruct C as [[C _]|[(_ & _ & C)|(_ & _ & C)]]; [lra|exact C|].
  pose proof (HM (k+1) (m-p) ltac:(lia) ltac:(lia) ltac:(lia)). lra.
Qed.

Section Control.
  Variables (g2 : Z -> Z -> Z -> Z) (g3 : Z -> Z -> Z -> Z -> Z) (maxint size dim : Z) (axes : Z -> axis Rord) (user : list Z)
            (LY : Z -> layout).
  Hypothesis Hset : col_setup_ok g2 g3 maxint size dim axes user LY.
  Variable CB : Z -> R -> Z -> Z -> (Z -> R) -> Z -> Z -> R.
  Variable BT : Z -> btable.
  Hypothesis HB : col_tables CB dim axes BT.
  Variables (e0 : Z -> elem) (sizes : Z -> Z -> Z).
  Let elems := fun r => rank_elements (e0 r) dim (ly_elem_start (LY r)) (ly_elem_width (LY r)) (sizes r).
  Let nen := col_nen BT.
  Let first := col_off BT.
  Let span (d x : Z) := col_span (ax_p (axes d)) (ax_m (axes d)) (ax_U (axes d)) (ax_nnp (axes d)) x.
  Let sh d := images (ax_p (axes d)) (ax_m (axes d)) (ax_nnp (axes d)).
  Let ngst := fun r d => r_gstart (ly_node (LY r) d).
  Let ngwd := fun r d => r_gwidth (ly_node (LY r) d).
  Let ggst := fun r d => r_gstart (ly_geom (LY r) d).
  Let ggwd := fun r d => r_gwidth (ly_geom (LY r) d).

  Lemma geom_facts r d : 0 <= r < size -> 0 <= d < 3 ->
    (dim <= d -> ggst r d = 0 /\ ggwd r d = 1 /\ ngst r d = 0 /\ ngwd r d = 1) /\
    (d < dim -> ggst r d = ngst r d + sh d /\ ngwd r d <= ggwd r d /\ ggst r d + ggwd r d <= ax_m (axes d) - ax_p (axes d) /\
       (ax_periodic (axes d) = false \/ span d (ax_nnp (axes d) - 1) = ax_m (axes d) - ax_p (axes d) - 1 -> ggwd r d = ngwd r d)).
  Proof using All.
    intros Hr Hd. pose proof (col_facts g2 g3 maxint size dim axes user LY Hset r d Hr Hd) as F. cbv zeta in F.
    destruct (col_form g2 g3 maxint size dim axes user LY Hset) as (n & Hn & HL & HD & Hz & HP & HLY).
    destruct F as (_ & F1 & F0 & Fw & F4 & F5 & F6 & _ & _ & _ & _ & F2 & F3).
    split.
    - intros Hdd. unfold ngst, ngwd, ggst, ggwd. rewrite F2 by auto. rewrite (HLY r Hr). unfold col_layout_of; cbn [ly_geom].
      replace (d <? dim) with false by lia. cbn. auto.
    - intros Hdd. specialize (F3 Hdd). destruct F3 as [F3 F3'].
      destruct (col_wf g2 g3 maxint size dim axes user LY Hset d ltac:(lia)) as (l & L & Hends & _). pose proof L as (_ & HV & _ & _ & Hnn).
      pose proof (HP d ltac:(lia)) as HPd.
      pose proof (pad_coords n r d Hn ltac:(lia) ltac:(lia)) as Hc.
      assert (Eg : ly_geom (LY r) d = colloc_geom_range (axes d) (pad 1 n d) (pad 0 (rank_coords n r) d) (sh d) (ly_node (LY r) d)).
      { rewrite (HLY r Hr). unfold col_layout_of; cbn [ly_geom ly_node]. replace (d <? dim) with true by lia.
        replace (col_shift (ax_p (axes d)) (ax_m (axes d)) (ax_nnp (axes d))) with (sh d); [reflexivity|]. unfold sh. rewrite shift_eq. reflexivity. }
      assert (El : r_lstart (ly_node (LY r) d) = dist_s (pad 1 n d) (ax_nnp (axes d)) (pad 0 (rank_coords n r) d) /\
                   r_lwidth (ly_node (LY r) d) = dist_n (pad 1 n d) (ax_nnp (axes d)) (pad 0 (rank_coords n r) d)).
      { pose proof (col_facts g2 g3 maxint size dim axes user LY Hset r d Hr Hd) as F. cbv zeta in F.
        destruct F as (_ & _ & _ & _ & _ & _ & _ & _ & S1 & S2 & _). rewrite <- S1, <- S2, (HLY r Hr). unfold col_layout_of; cbn [ly_elem_start ly_elem_width].
        replace (d <? dim) with true by lia. auto. }
      assert (HS : forall x, ax_p (axes d) <= span d x <= ax_m (axes d) - ax_p (axes d) - 1).
      { intros x. unfold span, col_span. apply (find_span_cases _ _ _ HV _ _ (span_of_some _ _ _ HV _)). }
      assert (Hlast : ax_periodic (axes d) = false -> span d (ax_nnp (axes d) - 1) = ax_m (axes d) - ax_p (axes d) - 1).
      { intros Hper. rewrite Hper in Hnn. unfold span. rewrite Hnn. apply last_span; auto. }
      unfold ggst, ggwd, ngst, ngwd. rewrite Eg. unfold colloc_geom_range.
      set (c := pad 0 (rank_coords n r) d) in *. set (P := pad 1 n d) in *.
      pose proof (HS (r_lstart (ly_node (LY r) d))) as HS1. pose proof (HS (r_lstart (ly_node (LY r) d) + r_lwidth (ly_node (LY r) d) - 1)) as HS2.
      fold (span d (r_lstart (ly_node (LY r) d))) in F3. fold (span d (r_lstart (ly_node (LY r) d) + r_lwidth (ly_node (LY r) d) - 1)) in F3'. fold (sh d) in F3, F3'.
      destruct (c =? P - 1) eqn:Ec.
      + assert (Ex : r_lstart (ly_node (LY r) d) + r_lwidth (ly_node (LY r) d) - 1 = ax_nnp (axes d) - 1).
        { destruct El as [-> ->]. replace c with (P - 1) by lia. pose proof (last_tile P (ax_nnp (axes d)) ltac:(lia) ltac:(lia)). lia. }
        rewrite Ex in *.
        destruct (c =? 0); cbn [r_gstart r_gwidth]; (split; [lia|]; split; [lia|]; split; [lia|]; intros [K|K]; [specialize (Hlast K)|]; lia).
      + destruct (c =? 0); cbn [r_gstart r_gwidth]; lia.
  Qed.

(** If no direction but the last is periodic (or their last points lie in the last interval), a process's copy of the
    control points is that of the functions active at the point, and it reads inside its arrays. *)
Theorem C106_control_points : (forall d, 0 <= d < dim - 1 ->
    ax_periodic (axes d) = false \/ span d (ax_nnp (axes d) - 1) = ax_m (axes d) - ax_p (axes d) - 1) ->
  forall r e, 0 <= r < size -> In e (elems r) ->
  let map_ := closure (first e) nen (ngst r) (ngwd r) in
  let active0 := fun d => if d <? dim then span d (coord e d) - ax_p (axes d) else 0 in
  (forall x, In x map_ -> 0 <= x < vol (ggwd r)) /\
  forall A (X : triple -> A), read_control map_ (control_array X (ggst r) (ggwd r)) = map (fun b => X (tadd active0 b)) (box zero3 nen).
Proof.
  intros Hw r e Hr He map_ active0.
  assert (HD : 1 <= dim <= 3) by exact (col_dim g2 g3 maxint size dim axes user LY Hset).
  assert (Key : forall b, In b (box zero3 nen) ->
    let t := tsub (ngst r) (tadd (first e) b) in
    in_box zero3 (ggwd r) t /\ lin (ngwd r) t = lin (ggwd r) t /\ tadd (ggst r) t = tadd active0 b).
  { intros b Hb t.
    assert (Hc : in_box (ngst r) (ngwd r) (tadd (first e) b)) by exact (cw_cov g2 g3 maxint size dim axes user LY Hset CB BT HB 1 ltac:(lia) e0 sizes r e b Hr He Hb).
    assert (GF : forall d, 0 <= d < 3 -> ngwd r d <= ggwd r d /\ ngst r d + active0 d = ggst r d + first e d /\
      (d < dim - 1 -> ggwd r d = ngwd r d) /\ (dim <= d -> ngwd r d = 1)).
    { intros d Hd. destruct (geom_facts r d Hr Hd) as [GA GB]. unfold active0. destruct (d <? dim) eqn:E.
      - specialize (GB ltac:(lia)). destruct GB as (B1 & B2 & _ & B3). split; [exact B2|]. split.
        + pose proof (col_off_dir dim axes CB BT HB e d ltac:(lia) ltac:(lia)) as Eo. fold first in Eo. fold (span d (coord e d)) in Eo. rewrite Eo, B1. unfold sh. set (zz := images _ _ _). ring.
        + split; [intros Hdd; apply B3, Hw; lia|lia].
      - specialize (GA ltac:(lia)). destruct (col_off_unit dim axes CB BT HB e d ltac:(lia) ltac:(lia)) as [K1 _]. fold first in K1. rewrite K1. lia. }
    destruct (GF 0 ltac:(lia)) as (A0 & B0 & C0 & D0). destruct (GF 1 ltac:(lia)) as (A1 & B1 & C1 & D1). destruct (GF 2 ltac:(lia)) as (A2 & B2 & C2 & D2).
    clear GF. destruct b as [[i j] k]. unfold tsub, tadd in *. unfold in_box, zero3 in *. unfold t. clear t. cbv zeta.
    split; [lia|]. split.
    - unfold lin. assert (E : dim = 1 \/ dim = 2 \/ dim = 3) by lia. destruct E as [E|[E|E]].
      + assert (X1 : first e 1 + j - ngst r 1 = 0) by lia. assert (X2 : first e 2 + k - ngst r 2 = 0) by lia. rewrite X1, X2. ring.
      + assert (X2 : first e 2 + k - ngst r 2 = 0) by lia. rewrite X2, C0 by lia. ring.
      + rewrite C0, C1 by lia. ring.
    - f_equal; [f_equal|]; lia. }
  assert (Em : map_ = map (fun b => lin (ngwd r) (tsub (ngst r) (tadd (first e) b))) (box zero3 nen)).
  { unfold map_, closure. apply map_ext. intros [[i j] k]. unfold lin, tsub, tadd. ring. }
  split.
  - intros x Hx. rewrite Em in Hx. apply in_map_iff in Hx. destruct Hx as (b & <- & Hb). destruct (Key b Hb) as (K1 & K2 & _). cbv zeta in *. rewrite K2.
    apply lin_in_range. exact K1.
  - intros A X. unfold read_control. rewrite Em, map_map. apply map_ext_in. intros b Hb. destruct (Key b Hb) as (K1 & K2 & K3). cbv zeta in *.
    rewrite K2. unfold control_array. rewrite <- K3. f_equal. f_equal.
    destruct (tsub (ngst r) (tadd (first e) b)) as [[i j] k]. unfold in_box, zero3 in K1. apply unlin_lin; lia.
Qed.
End Control.
Print Assumptions C106_control_points.

(** Otherwise not: cubics over the breaks 0, 1, 2, 5, 6 repeated along the first of two directions.  The process holds
    rows of seven control points and reads them as rows of six. *)
Definition bp_knots (j : Z) : R := match j with
  | 0 => -5 | 1 => -4 | 2 => -1 | 3 => 0 | 4 => 1 | 5 => 2 | 6 => 5 | 7 => 6 | 8 => 7 | 9 => 8 | _ => 11 end%R.
Definition bp_axes : Z -> axis Rord := fun i => if i =? 0 then mk_axis (O:=Rord) true 3 10 bp_knots 4 4 (Some [3; 4; 5; 6]) else ex_raxes i.
Definition bp_LY (r : Z) : layout := col_layout_of 2 bp_axes [1; 1] (rank_coords [1; 1] r).
Definition bp_BT (CB : Z -> R -> Z -> Z -> (Z -> R) -> Z -> Z -> R) (i : Z) : btable :=
  match setup_colloc CB 2 i true (ax_p (bp_axes i)) (ax_m (bp_axes i)) (ax_U (bp_axes i)) (ax_nnp (bp_axes i)) with
  | (_, Some T) => T
  | _ => no_btable
  end.
Lemma bp_lt i j : 0 <= i -> i < j -> j <= 10 -> (bp_knots i < bp_knots j)%R.
Proof.
  intros Hi Hij Hj.
  assert (Ei : i = 0 \/ i = 1 \/ i = 2 \/ i = 3 \/ i = 4 \/ i = 5 \/ i = 6 \/ i = 7 \/ i = 8 \/ i = 9) by lia.
  assert (Ej : j = 1 \/ j = 2 \/ j = 3 \/ j = 4 \/ j = 5 \/ j = 6 \/ j = 7 \/ j = 8 \/ j = 9 \/ j = 10) by lia.
  repeat (destruct Ei as [ -> |Ei]); [..|subst i]; repeat (destruct Ej as [ -> |Ej]); try (subst j); try lia; cbn; lra.
Qed.
Lemma bp_count lo hi v : 0 <= lo -> hi <= 10 -> count_eq (O:=Rord) bp_knots lo hi v <= 1.
Proof.
  intros Hlo Hhi. unfold count_eq. pose proof (NoDup_zseq lo (hi - lo + 1)) as ND. apply (NoDup_filter (fun i => keqb (O:=Rord) (bp_knots i) v)) in ND.
  assert (U : forall i j, In i (filter (fun i => keqb (O:=Rord) (bp_knots i) v) (zseq lo (hi - lo + 1))) ->
    In j (filter (fun i => keqb (O:=Rord) (bp_knots i) v) (zseq lo (hi - lo + 1))) -> i = j).
  { intros i j Hi Hj. apply filter_In in Hi, Hj. destruct Hi as [Hi Ei], Hj as [Hj Ej]. apply in_zseq in Hi. apply in_zseq in Hj.
    apply keqb_spec, keq_R in Ei. apply keqb_spec, keq_R in Ej. rewrite <- Ej in Ei. change (bp_knots i = bp_knots j) in Ei.
    destruct (Z.lt_total i j) as [L|[L|L]]; auto; exfalso; pose proof (fun a b => bp_lt a b) as K.
    - specialize (K i j ltac:(lia) L ltac:(lia)). rewrite Ei in K. exact (Rlt_irrefl _ K).
    - specialize (K j i ltac:(lia) L ltac:(lia)). rewrite Ei in K. exact (Rlt_irrefl _ K). }
  destruct (filter _ _) as [|a [|b l]]; cbn [length]; try lia. exfalso.
  inversion ND as [|? ? N1 _]; subst. apply N1. left. symmetry. apply U; cbn; auto.
Qed.
Lemma bp_valid : valid_knots (O:=Rord) 3 10 bp_knots.
Proof.
  split; [lia|]. split; [lia|]. split.
  - intros i j Hi Hij Hj. apply kle_R. destruct (Z.eq_dec i j) as [->|D]; [apply Rle_refl|]. left. apply bp_lt; lia.
  - intros v. pose proof (bp_count 1 (10-1) v ltac:(lia) ltac:(lia)). lia.
Qed.
Lemma bp_ready : axis_ready (bp_axes 0).
Proof.
  exists [3; 4; 5; 6]. split; [reflexivity|]. split; [exact bp_valid|]. split; [|split; [reflexivity|]].
  - split; [|repeat constructor; lia]. intros k. unfold is_element. rewrite klt_R. change (ax_p (bp_axes 0)) with 3. change (ax_m (bp_axes 0)) with 10. change (ax_U (bp_axes 0)) with bp_knots. split.
    + intros H. cbn [In] in H. split; [lia|]. apply bp_lt; lia.
    + intros [H _]. cbn [In]. lia.
  - change (bp_axes 0) with (mk_axis (O:=Rord) true 3 10 bp_knots 4 4 (Some [3; 4; 5; 6])). cbn [ax_periodic ax_nnp ax_p ax_m ax_U].
    assert (E : count_eq (O:=Rord) bp_knots (10-3) (10-1) (bp_knots (10-3)) = 1).
    { pose proof (bp_count (10-3) (10-1) (bp_knots (10-3)) ltac:(lia) ltac:(lia)) as B.
      assert (0 < count_eq (O:=Rord) bp_knots (10-3) (10-1) (bp_knots (10-3))); [|lia].
      unfold count_eq. change (zseq (10-3) (10-1-(10-3)+1)) with [7; 8; 9]. cbn [filter]. change (10-3) with 7.
      replace (keqb (bp_knots 7) (bp_knots 7)) with true by (symmetry; apply keqb_spec, keq_R; reflexivity). cbn [length]. lia. }
    rewrite E. reflexivity.
Qed.
Lemma bp_setup_ok : col_setup_ok exact_g2 exact_g3 (2^31-1) 1 2 bp_axes [-1; -1] bp_LY.
Proof.
  destruct ex_csetup_ok as (H2 & H3 & _ & H5 & _). split; [exact H2|]. split; [exact H3|]. split; [lia|]. split.
  - intros i Hi. assert (E : i = 0 \/ i = 1) by lia. destruct E as [ -> | -> ].
    + split; [exact bp_ready|]. split; [|change (1 <= 4); lia]. split; apply klt_R; [change (bp_knots 3 < bp_knots 4)%R|change (bp_knots 6 < bp_knots 7)%R]; apply bp_lt; lia.
    + exact (H5 0 ltac:(lia)).
  - intros r Hr. unfold col_stage1. change (map (fun i => ax_nnp (bp_axes i)) (zseq 0 2)) with [4; 5].
    assert (r = 0) as -> by lia.
    assert (E : partition exact_g2 exact_g3 (2^31-1) 1 0 [4; 5] [-1; -1] = (Ok, [1; 1], rank_coords [1; 1] 0)) by (vm_compute; reflexivity). rewrite E. reflexivity.
Qed.
Lemma bp_tables CB : col_tables CB 2 bp_axes (bp_BT CB).
Proof.
  intros i Hi. assert (E : i = 0 \/ i = 1 \/ i = 2) by lia. destruct E as [ -> | [ -> | -> ] ]; reflexivity.
Qed.
Lemma bp_spans : col_span 3 10 bp_knots 4 0 = 3 /\ col_span 3 10 bp_knots 4 3 = 5.
Proof.
  assert (P : forall i, 0 <= i < 4 -> col_point 3 10 bp_knots 4 i = ((bp_knots (i+2) + bp_knots (i+3) + bp_knots (i+4)) / 3)%R).
  { intros i Hi. rewrite col_point_eq by lia. unfold greville_abscissa. change (images 3 10 4) with 1. change (zseq 1 3) with [1; 2; 3].
    unfold rsum. cbn [map fold_right]. replace (i + 1 + 1) with (i + 2) by lia. replace (i + 1 + 2) with (i + 3) by lia. replace (i + 1 + 3) with (i + 4) by lia. field. }
  assert (Q0 : col_point 3 10 bp_knots 4 0 = 0%R) by (rewrite P by lia; change (((-1) + 0 + 1) / 3 = 0)%R; field).
  assert (Q3 : col_point 3 10 bp_knots 4 3 = (13/3)%R) by (rewrite P by lia; change ((2 + 5 + 6) / 3 = 13/3)%R; field).
  split; unfold col_span; [rewrite Q0|rewrite Q3].
  - unfold span_of, find_span. replace (kltb (bp_knots 3) 0%R) with false; [reflexivity|]. symmetry. apply Rltb_false. cbn; lra.
  - destruct (find_span_cases _ _ _ bp_valid _ _ (span_of_some _ _ _ bp_valid (13/3)%R)) as [B C].
    set (k := span_of 3 10 bp_knots (13/3)%R) in *. clearbody k. change (10-3-1) with 6 in *.
    assert (Ek : k = 3 \/ k = 4 \/ k = 5 \/ k = 6) by lia.
    destruct Ek as [ -> | [ -> | [ -> | -> ] ] ]; auto; exfalso; destruct C as [[C _]|[(_ & C & _)|(_ & C & C')]];
      repeat match goal with H : (bp_knots ?x <= _)%R |- _ => let y := eval compute in x in change (bp_knots x) with (bp_knots y) in H; cbn [bp_knots] in H
                           | H : (_ <= bp_knots ?x)%R |- _ => cbn [bp_knots] in H
                           | H : (_ < bp_knots ?x)%R |- _ => let y := eval compute in x in change (bp_knots x) with (bp_knots y) in H; cbn [bp_knots] in H end; lra.
Qed.
Theorem C106_refuted : exists axes LY BT (e0 : Z -> elem) sizes e,
  col_setup_ok exact_g2 exact_g3 (2^31-1) 1 2 axes [-1; -1] LY /\ col_tables (fun _ _ _ _ _ _ _ => 0%R) 2 axes BT /\
  In e (rank_elements (e0 0) 2 (ly_elem_start (LY 0)) (ly_elem_width (LY 0)) (sizes 0)) /\
  let nd := ly_node (LY 0) in let gm := ly_geom (LY 0) in
  read_control (closure (col_off BT e) (col_nen BT) (fun d => r_gstart (nd d)) (fun d => r_gwidth (nd d)))
    (control_array (fun t => t) (fun d => r_gstart (gm d)) (fun d => r_gwidth (gm d))) <>
  map (fun b => tadd (fun d => if d <? 2 then col_span (ax_p (axes d)) (ax_m (axes d)) (ax_U (axes d)) (ax_nnp (axes d)) (coord e d) - ax_p (axes d) else 0) b)
    (box zero3 (col_nen BT)).
Proof.
  set (CB := fun (_ : Z) (_ : R) (_ _ : Z) (_ : Z -> R) (_ _ : Z) => 0%R).
  set (e00 := mk_elem 2 (fun _ => 0) (fun _ => 1) (fun _ => 1) 0 0 (fun _ => 0) (-1) false).
  exists bp_axes, bp_LY, (bp_BT CB), (fun _ => e00), (fun _ _ => 1), (0, 0, 0).
  split; [exact bp_setup_ok|]. split; [apply bp_tables|].
  pose proof (cw_elems _ _ _ _ _ _ _ _ bp_setup_ok CB _ (bp_tables CB) 1 ltac:(lia) (fun _ => e00) (fun _ _ => 1) 0 ltac:(lia)) as E.
  assert (F : forall d, 0 <= d < 3 -> r_lstart (ly_node (bp_LY 0) d) = ly_elem_start (bp_LY 0) d /\ r_lwidth (ly_node (bp_LY 0) d) = ly_elem_width (bp_LY 0) d).
  { intros d Hd. pose proof (col_facts _ _ _ _ _ _ _ _ bp_setup_ok 0 d ltac:(lia) Hd) as F. cbv zeta in F. split; symmetry; apply F. }
  destruct (F 0 ltac:(lia)) as [F0 F0']. destruct (F 1 ltac:(lia)) as [F1 F1']. destruct (F 2 ltac:(lia)) as [F2 F2'].
  change (ly_elem_start (bp_LY 0) 0) with 0 in F0. change (ly_elem_start (bp_LY 0) 1) with 0 in F1. change (ly_elem_start (bp_LY 0) 2) with 0 in F2.
  assert (G0' : ly_elem_width (bp_LY 0) 0 = 4) by reflexivity. assert (G1' : ly_elem_width (bp_LY 0) 1 = 5) by reflexivity. assert (G2' : ly_elem_width (bp_LY 0) 2 = 1) by reflexivity.
  rewrite G0' in F0'. rewrite G1' in F1'. rewrite G2' in F2'.
  split.
  { rewrite E. apply In_box. unfold in_box. cbn [grid_of gr_lstart gr_lwidth]. lia. }
  intros nd gm H. destruct bp_spans as [S0 S3].
  (* the first direction *)
  pose proof (col_facts _ _ _ _ _ _ _ _ bp_setup_ok 0 0 ltac:(lia) ltac:(lia)) as K0. cbv zeta in K0.
  destruct K0 as (_ & _ & _ & _ & _ & _ & _ & _ & _ & _ & _ & _ & K0). specialize (K0 ltac:(lia)). rewrite F0, F0' in K0. change (0 + 4 - 1) with 3 in K0.
  change (ax_p (bp_axes 0)) with 3 in K0. change (ax_m (bp_axes 0)) with 10 in K0. change (ax_U (bp_axes 0)) with bp_knots in K0. change (ax_nnp (bp_axes 0)) with 4 in K0.
  rewrite S0, S3 in K0. change (images 3 10 4) with 1 in K0. destruct K0 as [K0 K0'].
  pose proof (col_facts _ _ _ _ _ _ _ _ bp_setup_ok 0 1 ltac:(lia) ltac:(lia)) as K1. cbv zeta in K1.
  destruct K1 as (_ & _ & _ & _ & _ & _ & _ & _ & _ & _ & _ & _ & K1). specialize (K1 ltac:(lia)). rewrite F1, F1' in K1. destruct K1 as [K1 _].
  pose proof (col_facts _ _ _ _ _ _ _ _ bp_setup_ok 0 2 ltac:(lia) ltac:(lia)) as K2. cbv zeta in K2.
  destruct K2 as (_ & _ & _ & _ & _ & _ & _ & _ & _ & _ & _ & K2 & _). specialize (K2 ltac:(lia)).
  assert (Gm : gm 0 = mk_range 7 0 7 0 7).
  { unfold gm. change (ly_geom (bp_LY 0) 0) with (colloc_geom_range (bp_axes 0) 1 0 1 (ly_node (bp_LY 0) 0)). unfold colloc_geom_range.
    change (0 =? 0) with true. change (0 =? 1 - 1) with true. cbv iota. rewrite F0, K0. reflexivity. }
  assert (Gm1 : r_gstart (gm 1) = r_gstart (nd 1)).
  { unfold gm, nd. change (ly_geom (bp_LY 0) 1) with (colloc_geom_range (bp_axes 1) 1 0 0 (ly_node (bp_LY 0) 1)). unfold colloc_geom_range.
    change (0 =? 0) with true. change (0 =? 1 - 1) with true. cbv iota. cbn [r_gstart]. lia. }
  assert (Gw1 : 1 <= r_gwidth (gm 1)).
  { destruct (geom_facts _ _ _ _ _ _ _ _ bp_setup_ok CB _ (bp_tables CB) (fun _ => e00) (fun _ _ => 1) 0 1 ltac:(lia) ltac:(lia)) as [_ Q]. destruct (Q ltac:(lia)) as (_ & Q2 & _).
    pose proof (col_facts _ _ _ _ _ _ _ _ bp_setup_ok 0 1 ltac:(lia) ltac:(lia)) as K3. cbv zeta in K3. unfold gm. lia. }
  assert (Hn : nth 4 (closure (col_off (bp_BT CB) (0, 0, 0)) (col_nen (bp_BT CB)) (fun d => r_gstart (nd d)) (fun d => r_gwidth (nd d))) 0 = 6).
  { unfold closure. change (box zero3 (col_nen (bp_BT CB))) with (box zero3 (fun d => if d =? 0 then 4 else if d =? 1 then 3 else 1)).
    change (nth 4 (map _ _) 0) with
      (let o := col_off (bp_BT CB) (0, 0, 0) in (o 0 + 0 - r_gstart (nd 0)) + (o 1 + 1 - r_gstart (nd 1)) * r_gwidth (nd 0) + (o 2 + 0 - r_gstart (nd 2)) * (r_gwidth (nd 0) * r_gwidth (nd 1))).
    cbv zeta. rewrite (col_off_dir 2 bp_axes CB _ (bp_tables CB) (0, 0, 0) 0 ltac:(lia) ltac:(lia)), (col_off_dir 2 bp_axes CB _ (bp_tables CB) (0, 0, 0) 1 ltac:(lia) ltac:(lia)).
    rewrite (proj1 (col_off_unit 2 bp_axes CB _ (bp_tables CB) (0, 0, 0) 2 ltac:(lia) ltac:(lia))).
    change (coord (0, 0, 0) 0) with 0. change (coord (0, 0, 0) 1) with 0.
    change (ax_p (bp_axes 0)) with 3. change (ax_m (bp_axes 0)) with 10. change (ax_U (bp_axes 0)) with bp_knots. change (ax_nnp (bp_axes 0)) with 4.
    rewrite S0. unfold nd. rewrite K1, K2. cbn [unit_range r_gstart r_gwidth]. change (images 3 10 4) with 1.
    set (zz := images _ _ _). set (kk := col_span _ _ _ _ _). nia. }
  assert (H4 : forall (A : Type) (l l' : list A) d, l = l' -> nth 4 l d = nth 4 l' d) by (intros A l l' d ->; reflexivity).
  apply (H4 _ _ _ (control_array (fun t => t) (fun d => r_gstart (gm d)) (fun d => r_gwidth (gm d)) 0)) in H.
  unfold read_control in H. rewrite map_nth, Hn in H.
  unfold control_array, unlin in H. rewrite Gm in H. cbn [r_gstart r_gwidth] in H. change (6 / 7) with 0 in H. change (6 mod 7) with 6 in H.
  rewrite Z.mod_0_l in H by lia.
  change (box zero3 (col_nen (bp_BT CB))) with (box zero3 (fun d => if d =? 0 then 4 else if d =? 1 then 3 else 1)) in H.
  change (nth 4 (map ?f (box zero3 _)) ?d) with (f (0, 1, 0)) in H.
  unfold tadd in H. cbn [fst snd] in H. rewrite Gm in H. cbn [r_gstart] in H. change (0 <? 2) with true in H. cbv iota in H.
  change (coord (0, 0, 0) 0) with 0 in H.
  change (ax_p (bp_axes 0)) with 3 in H. change (ax_m (bp_axes 0)) with 10 in H. change (ax_U (bp_axes 0)) with bp_knots in H. change (ax_nnp (bp_axes 0)) with 4 in H.
  rewrite S0 in H. injection H. intros _ _ X. lia.
Qed.
Print Assumptions C106_refuted.

(** With the same axis as the second direction the theorem applies. *)
Definition pb_axes : Z -> axis Rord := fun i => if i =? 0 then ex_raxes i else bp_axes 0.
Definition pb_LY (r : Z) : layout := col_layout_of 2 pb_axes [1; 1] (rank_coords [1; 1] r).
Example C106_example : col_setup_ok exact_g2 exact_g3 (2^31-1) 1 2 pb_axes [-1; -1] pb_LY /\
  (forall d, 0 <= d < 2 - 1 -> ax_periodic (pb_axes d) = false) /\ ax_periodic (pb_axes 1) = true.
Proof.
  split; [|split; [intros d Hd; replace d with 0 by lia; reflexivity|reflexivity]].
  destruct bp_setup_ok as (H2 & H3 & _ & H5 & _). split; [exact H2|]. split; [exact H3|]. split; [lia|]. split.
  - intros i Hi. assert (E : i = 0 \/ i = 1) by lia. destruct E as [ -> | -> ]; [exact (H5 1 ltac:(lia))|exact (H5 0 ltac:(lia))].
  - intros r Hr. unfold col_stage1. change (map (fun i => ax_nnp (pb_axes i)) (zseq 0 2)) with [5; 4].
    assert (r = 0) as -> by lia.
    assert (E : partition exact_g2 exact_g3 (2^31-1) 1 0 [5; 4] [-1; -1] = (Ok, [1; 1], rank_coords [1; 1] 0)) by (vm_compute; reflexivity). rewrite E. reflexivity.
Qed.
