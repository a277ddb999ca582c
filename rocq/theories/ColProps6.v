(** C108: boundary conditions in the nonlinear systems of the collocation method. *)
From Coq Require Import ZArith List Bool Lia Reals Lra Permutation Sorted.
From Coq Require Import ZifyBool ZifyNat.
From Verif Require Import Prelude RealOrd AxisModel AxisSpec AxisInitModel PartModel PartSpec PartProofs SetupModel SetupProofs SetupProps CollocProofs
  GridModel GridSpec GridProofs GridProofs2 GridSetup GridProps ElemModel ElemProofs ElemProps AsmProofs
  BCModel BCSpec BCProofs BCProofs2 DrvModel DrvSpec DrvProofs DrvProofs2 DrvProofs3 RuleModel RuleProps MapModel TabModel BasModel ColModel ColSpec ColProofs ColProofs2 ColProofs3 ColProofs4 ColProofs5 ColProofs6 ColProps ColProps2 ColProps5.
From Verif Require Import ElemSpec Box.
Import ListNotations.
Open Scope Z_scope.

Section Nonlinear.
  Variables (g2 : Z -> Z -> Z -> Z) (g3 : Z -> Z -> Z -> Z -> Z) (maxint size dim : Z) (axes : Z -> axis Rord) (user : list Z)
            (LY : Z -> layout).
  Hypothesis Hset : col_setup_ok g2 g3 maxint size dim axes user LY.
  Hypothesis Hper : forall d, 0 <= d < dim -> ax_periodic (axes d) = false.
  Variable CB : Z -> R -> Z -> Z -> (Z -> R) -> Z -> Z -> R.
  Variable BT : Z -> btable.
  Hypothesis HB : col_tables CB dim axes BT.
  Variable dof : Z.
  Hypothesis Hdof : 1 <= dof.
  Variables (e0 : Z -> elem) (sizes : Z -> Z -> Z).
  Variable visit : Z -> Z -> bool.
  Variable L0 : Z -> Z -> R.
  Variable order : list Z.
  Hypothesis Ho : Permutation order (zseq 0 size).
  Variable value : Z -> Z -> list (Z * R).
  Hypothesis Hvalue : forall d s, NoDup (map fst (value d s)) /\ forall k, In k (map fst (value d s)) -> 0 <= k.
  Variable shape : triple -> form_visit -> Z -> R.
  Variable T : option nodal.                (* IGASetFixTable *)
  Let N := node_count dim axes.
  Let G := fun r => grid_of dof (ly_node (LY r)).
  Let elems := fun r => rank_elements (e0 r) dim (ly_elem_start (LY r)) (ly_elem_width (LY r)) (sizes r).
  Let nen := col_nen BT.
  Let first := col_off BT.
  Let mapping := fun r e => closure (first e) nen (gr_gstart (G r)) (gr_gwidth (G r)).
  Let rowmap := fun r e => row_map (gr_gstart (G r)) (gr_gwidth (G r)) e.
  Let ix := fun (t : triple) (c : Z) => dof * ao size G (lin N t) + c.
  Let npts := tab_npts BT.
  Let JW := col_JW dim BT.
  Let node := elem_node N first.
  Let per := fun d => ax_periodic (axes d).
  Let presc := node_prescribed dim per N value T.
  Let pf := point_form dim N visit.
  Let earr := earr dof N nen first.
  (** IGAComputeFunction and IGAComputeJacobian *)
  Let vec := fun (Function : cb1) ins => col_compute_vector size G dof elems mapping rowmap
    (fun r => c_function dim dof nen N first per visit value (is_some T) npts JW (gr_gstart (G r)) (gr_gwidth (G r)) Function) ins L0 order.
  Let mat := fun (Jacobian : cb1) ins => col_compute_matrix size G dof elems mapping rowmap
    (fun r => c_jacobian dim dof nen N first per visit value (is_some T) npts JW shape (gr_gstart (G r)) (gr_gwidth (G r)) Jacobian) ins L0 order.

  Let HD : 1 <= dim <= 3.
  Proof using All. exact (cw_dim g2 g3 maxint size dim axes user LY Hset CB BT HB dof Hdof e0 sizes). Qed.
  Let Hnen : forall d, 0 <= d < 3 -> 1 <= nen d.
  Proof using All. exact (cw_nen1 g2 g3 maxint size dim axes user LY Hset CB BT HB dof Hdof e0 sizes). Qed.
  Let W : grid_world size dof N G.
  Proof using All. exact (cw_world g2 g3 maxint size dim axes user LY Hset CB BT HB dof Hdof e0 sizes). Qed.
  Let HN : forall d, 0 <= d < 3 -> 1 <= N d.
  Proof using All.
    intros d Hd. assert (Hs : 1 <= size) by exact (col_size g2 g3 maxint size dim axes user LY Hset).
    pose proof (col_facts g2 g3 maxint size dim axes user LY Hset 0 d ltac:(lia) Hd) as F. cbv zeta in F. exact (proj1 (proj2 F)).
  Qed.

  (** Without periodic axes the functions listed at a node are inside the grid, its own among them. *)
  Lemma open_off t d : in_box zero3 N t -> 0 <= d < 3 ->
    0 <= first t d /\ first t d + nen d <= N d /\ first t d <= coord t d < first t d + nen d.
  Proof using All.
    intros Ht Hd. assert (Hc : 0 <= coord t d < N d).
    { destruct t as [[i j] k]. unfold in_box, zero3 in Ht. assert (E : d = 0 \/ d = 1 \/ d = 2) by lia.
      destruct E as [ -> | [ -> | -> ] ]; [change (0 <= i < N 0)|change (0 <= j < N 1)|change (0 <= k < N 2)]; lia. }
    destruct (Z.lt_ge_cases d dim) as [L|L].
    - destruct (col_wf g2 g3 maxint size dim axes user LY Hset d ltac:(lia)) as (l & L' & HE & _). pose proof L' as (_ & HV & _ & _ & Hn). rewrite (Hper d ltac:(lia)) in Hn.
      assert (En : N d = ax_nnp (axes d)) by exact (cw_nnp_eq g2 g3 maxint size dim axes user LY Hset CB BT HB dof Hdof e0 sizes d ltac:(lia)).
      assert (Ep : nen d = ax_p (axes d) + 1) by exact (col_nen_dir dim axes CB BT HB d ltac:(lia) ltac:(lia)).
      assert (Ei : images (ax_p (axes d)) (ax_m (axes d)) (ax_nnp (axes d)) = 0).
      { rewrite Hn. unfold images. replace (ax_m (axes d) - ax_p (axes d) - (ax_m (axes d) - ax_p (axes d))) with 0 by ring. reflexivity. }
      assert (Ef : first t d = col_span (ax_p (axes d)) (ax_m (axes d)) (ax_U (axes d)) (ax_nnp (axes d)) (coord t d) - ax_p (axes d) - 0).
      { rewrite <- Ei. exact (col_off_dir dim axes CB BT HB t d ltac:(lia) ltac:(lia)). }
      rewrite Ef, En, Ep. rewrite En in Hc. set (A := axes d) in *. set (p := ax_p A) in *. set (m := ax_m A) in *.
      assert (Eg : col_span p m (ax_U A) (ax_nnp A) (coord t d) = span_of p m (ax_U A) (greville (coord t d) p (ax_U A))).
      { unfold col_span. f_equal. unfold col_point. f_equal. rewrite Hn. unfold col_shift. replace (m - p - 1 + 1 - (m - p)) with 0 by lia. change (0 / 2) with 0. lia. }
      rewrite Eg. destruct (find_span_cases p m (ax_U A) HV _ _ (span_of_some p m (ax_U A) HV (greville (coord t d) p (ax_U A)))) as [B _].
      pose proof (greville_span p m (ax_U A) HV (coord t d) _ HE ltac:(lia) (span_of_some p m (ax_U A) HV _)) as HA. unfold active in HA.
      rewrite Hn. lia.
    - destruct (col_off_unit dim axes CB BT HB t d ltac:(lia) ltac:(lia)) as [X Y].
      assert (En : N d = 1) by (unfold N, node_count; replace (d <? dim) with false by lia; reflexivity).
      rewrite En in *. unfold first, nen. rewrite X, Y. lia.
  Qed.
  Lemma open_node t a : in_box zero3 N t -> in_box zero3 nen a -> node t a = tadd (first t) a.
  Proof using All.
    intros Ht Ha. pose proof (open_off t 0 Ht ltac:(lia)). pose proof (open_off t 1 Ht ltac:(lia)). pose proof (open_off t 2 Ht ltac:(lia)).
    destruct a as [[i j] k]. unfold in_box, zero3 in Ha. unfold node, elem_node, tadd, modbox. rewrite !Z.mod_small by lia. reflexivity.
  Qed.
  Let own t : triple := (coord t 0 - first t 0, coord t 1 - first t 1, coord t 2 - first t 2).
  Lemma own_box t : in_box zero3 N t -> in_box zero3 nen (own t).
  Proof using All.
    intros Ht. pose proof (open_off t 0 Ht ltac:(lia)). pose proof (open_off t 1 Ht ltac:(lia)). pose proof (open_off t 2 Ht ltac:(lia)).
    unfold in_box, own, zero3. lia.
  Qed.
  Lemma own_node t : in_box zero3 N t -> node t (own t) = t.
  Proof using All.
    intros Ht. rewrite open_node by (auto; apply own_box; auto). unfold own, tadd. destruct t as [[i j] k].
    change (coord (i,j,k) 0) with i. change (coord (i,j,k) 1) with j. change (coord (i,j,k) 2) with k. f_equal; [f_equal|]; lia.
  Qed.
  (** The test rowmap[0] == colmap[a] picks the node's own function. *)
  Lemma row_is_col r t a : 0 <= r < size -> In t (elems r) -> 0 <= a < vol nen ->
    (rowmap r t = colmap nen first (gr_gstart (G r)) (gr_gwidth (G r)) t a <-> a = lin nen (own t)).
  Proof using All.
    intros Hr Hin Ha.
    assert (Hg := cw_Hg g2 g3 maxint size dim axes user LY Hset CB BT HB dof Hdof e0 sizes).
    assert (Hn : forall d, 0 <= d < 3 -> 0 <= nen d) by (intros d Hd; pose proof (Hnen d Hd); lia).
    assert (He : forall r, 0 <= r < size -> elems r = box (gr_lstart (G r)) (gr_lwidth (G r))) by exact (cw_elems g2 g3 maxint size dim axes user LY Hset CB BT HB dof Hdof e0 sizes).
    assert (Hcov := cw_cov g2 g3 maxint size dim axes user LY Hset CB BT HB dof Hdof e0 sizes).
    assert (Hown := cw_own g2 g3 maxint size dim axes user LY Hset CB BT HB dof Hdof e0 sizes).
    assert (Ht : in_box zero3 N t) by exact (own_in_N size dof N G W Hg nen first Hn elems He Hcov Hown r t Hr Hin).
    assert (TG : in_box (gr_gstart (G r)) (gr_gwidth (G r)) t).
    { rewrite He in Hin by auto. apply In_box in Hin. assert (S : subbox (gr_lstart (G r)) (gr_lwidth (G r)) (gr_gstart (G r)) (gr_gwidth (G r))) by exact (Hown r Hr). destruct t as [[i j] k]. unfold in_box in Hin |- *.
      pose proof (S 0 ltac:(lia)) as S0. pose proof (S 1 ltac:(lia)) as S1. pose proof (S 2 ltac:(lia)) as S2. lia. }
    destruct (lin_unlin nen a ltac:(pose proof (Hnen 0 ltac:(lia)); lia) ltac:(pose proof (Hnen 1 ltac:(lia)); lia) ltac:(pose proof (Hnen 2 ltac:(lia)); lia) Ha) as [U2 U1].
    set (b := unlin nen a) in *. rewrite <- U2.
    assert (Hb : In b (box zero3 nen)) by (apply In_box; exact U1).
    assert (Ec : colmap nen first (gr_gstart (G r)) (gr_gwidth (G r)) t (lin nen b) = lin (gr_gwidth (G r)) (tsub (gr_gstart (G r)) (tadd (first t) b))).
    { unfold colmap, closure. destruct b as [[i j] k]. unfold in_box, zero3 in U1.
      match goal with |- nth ?n (map ?f ?l) 0 = _ => set (g := f); transitivity (nth n (map g l) (g (0,0,0))); [apply nth_indep|rewrite (map_nth g)] end.
      - rewrite map_length, length_box3 by exact Hn. rewrite U2. lia.
      - rewrite nth_box by lia. unfold g, zero3, lin, tsub, tadd. ring. }
    assert (Er : rowmap r t = lin (gr_gwidth (G r)) (tsub (gr_gstart (G r)) t)).
    { unfold rowmap, row_map. destruct t as [[i j] k]. unfold lin, tsub. ring. }
    rewrite Ec, Er. assert (BG : in_box (gr_gstart (G r)) (gr_gwidth (G r)) (tadd (first t) b)) by exact (Hcov r t b Hr Hin Hb).
    split.
    - intros E. apply lin_inj in E.
      + f_equal. unfold own. destruct t as [[i j] k]. destruct b as [[bi bj] bk]. unfold tsub, tadd in E. change (coord (i,j,k) 0) with i. change (coord (i,j,k) 1) with j. change (coord (i,j,k) 2) with k. injection E as E1 E2 E3. f_equal; [f_equal|]; lia.
      + destruct t as [[i j] k]. unfold in_box, tsub, zero3 in *. lia.
      + destruct (tadd (first t) b) as [[i j] k]. unfold in_box, tsub, zero3 in *. lia.
    - intros E. apply lin_inj in E; [|exact U1|apply own_box; exact Ht]. rewrite E. rewrite <- (open_node t (own t) Ht (own_box t Ht)), (own_node t Ht). reflexivity.
  Qed.

  Let table e := option_map (earr e) T.
  Let fixes e := build_fix_colloc dof (table e) (fun a => a) nen value dim per N (first e).
  Let Hsz : forall d, 0 <= d < dim -> 2 <= N d.
  Proof using All.
    intros d Hd. destruct (col_wf g2 g3 maxint size dim axes user LY Hset d ltac:(lia)) as (l & L' & HE & _). pose proof L' as (_ & HV & _ & _ & Hn). rewrite (Hper d ltac:(lia)) in Hn.
    assert (En : N d = ax_nnp (axes d)) by exact (cw_nnp_eq g2 g3 maxint size dim axes user LY Hset CB BT HB dof Hdof e0 sizes d ltac:(lia)).
    rewrite En, Hn. destruct HV as (Hp & Hm & _). lia.
  Qed.
  Lemma fixes_keys e : NoDup (keys (fixes e)) /\ forall k, In k (keys (fixes e)) -> 0 <= k < vol nen * dof.
  Proof using All. exact (colloc_keys dof Hdof (table e) nen Hnen value Hvalue dim HD per Hper N (first e) Hsz). Qed.
  Let at_ x e a c : in_box zero3 nen a -> 0 <= c < dof -> earr e x (lin nen a * dof + c) = x (node e a) c.
  Proof using All. exact (earr_at dof N nen N first visit npts JW presc (fun _ _ _ => 0%R) Hdof Hnen HN x e a c). Qed.
  Lemma fixes_lookup t a c : in_box zero3 N t -> in_box zero3 nen a -> 0 <= c < dof ->
    lookup (lin nen a * dof + c) (fixes t) = presc (node t a) c.
  Proof using All.
    intros Ht Ha Hc. unfold fixes. rewrite (colloc_lookup dof Hdof (table t) nen Hnen value Hvalue dim HD per Hper N (first t) Hsz a c Ha Hc).
    unfold presc, node_prescribed.
    assert (K : forall L cur, (forall f, In f L -> 0 <= fst f < dim) -> fold_left (fun cur f =>
        if first t (fst f) + coord a (fst f) =? (if snd f =? 0 then 0 else N (fst f) - 1) then
          match lookup c (value (fst f) (snd f)) with Some v => Some (match table t with Some T => T (c + lin nen a * dof) | None => v end) | None => cur end else cur) L cur =
        fold_left (fun cur f => if node_on_face per N (node t a) f then
          match lookup c (value (fst f) (snd f)) with Some v => Some (match T with Some T => T (node t a) c | None => v end) | None => cur end else cur) L cur).
    { induction L as [|[d s] L IH]; intros cur HL; [reflexivity|]. cbn [fold_left fst snd].
      pose proof (HL (d,s) (or_introl eq_refl)) as Hd. cbn [fst] in Hd.
      assert (E1 : node_on_face per N (node t a) (d, s) = (first t d + coord a d =? (if s =? 0 then 0 else N d - 1))).
      { unfold node_on_face, per. rewrite (Hper d Hd). cbn [negb andb]. rewrite open_node by auto. f_equal.
        destruct a as [[i j] k]. unfold tadd. assert (E : d = 0 \/ d = 1 \/ d = 2) by lia. destruct E as [ -> | [ -> | -> ] ]; reflexivity. }
      rewrite E1. assert (E2 : forall v : R, match table t with Some T => T (c + lin nen a * dof) | None => v end = match T with Some T => T (node t a) c | None => v end).
      { intros v. unfold table. destruct T as [x|]; [|reflexivity]. cbn [option_map]. rewrite Z.add_comm. apply at_; auto. }
      rewrite IH by (intros; apply HL; right; auto). f_equal. destruct (_ =? _); [|reflexivity]. destruct (lookup c (value d s)); [|reflexivity]. rewrite E2. reflexivity. }
    apply (K (faces dim) None). intros [d s] Hf. apply in_faces in Hf. cbn [fst]. lia.
  Qed.
  Lemma fixed_values t x : in_box zero3 N t -> fix_values (fixes t) (earr t x) = (map (fun e => earr t x (fst e)) (fixes t), earr t (held presc x)).
  Proof using All.
    intros Ht. destruct (fixes_keys t) as [ND HK]. destruct (fix_values_spec (fixes t) (earr t x) ND) as [V1 V2].
    rewrite (surjective_pairing (fix_values (fixes t) (earr t x))), V1. f_equal.
    apply (earr_ext dof N nen N first visit npts JW presc (fun _ _ _ => 0%R) Hdof Hnen HN).
    - intros a c Ha Hc. rewrite V2, fixes_lookup by auto. rewrite at_ by auto. reflexivity.
    - intros i Hi. rewrite V2. destruct (lookup i (fixes t)) as [v|] eqn:E.
      + apply lookup_In in E; [|exact ND]. apply (in_map fst) in E. specialize (HK i E). change (i < 0 \/ vol nen * dof <= i) in Hi. lia.
      + exact (earr_out dof N nen N first visit npts JW presc (fun _ _ _ => 0%R) Hdof Hnen HN x t i Hi).
  Qed.
  Let copy := elem_copy N nen first dof.
  Lemma col_fix_fixes e X : col_fix dim dof nen N first per value (is_some T) e (map (copy e) (opt_list T ++ X)) = fixes e.
  Proof using All. unfold col_fix, table_of, fixes, table. destruct T as [x|]; reflexivity. Qed.
  Lemma col_input k e X : input (is_some T) k (map (copy e) (opt_list T ++ X)) = arr (nth k (map (copy e) X) []).
  Proof using All. unfold input, inputs_of. destruct T as [x|]; reflexivity. Qed.

(** The residual: x - v where a value v is prescribed, elsewhere what the user's routine returned at the point of the node,
    called once, with the prescribed values in place of the unknowns. *)
Theorem C108_function : forall (Function : cb1) ins (x : nodal), Forall2 (holds size dof N G) ins (opt_list T ++ [x]) ->
  forall t c, in_box zero3 N t -> 0 <= c < dof ->
  vec Function ins (ix t c) =
  match presc t c with
  | Some v => (x t c - v)%R
  | None => Function t (pf t) 0 (earr t (held presc x)) (fun _ => 0%R) c
  end.
Proof using All.
  intros Function ins x Hins t c Ht Hc.
  destruct (C104_rows g2 g3 maxint size dim axes user LY Hset CB BT HB dof Hdof e0 sizes L0 order Ho ins _ Hins t Ht) as (r0 & Hr0 & Hin & H).
  destruct (H c Hc) as [HV _]. clear H. etransitivity; [exact (HV _)|]. cbv beta. unfold c_function.
  match goal with |- context [col_fix ?a1 ?a2 ?a3 ?a4 ?a5 ?a6 ?a7 ?a8 ?a9 ?a10] =>
    assert (EF : col_fix a1 a2 a3 a4 a5 a6 a7 a8 a9 a10 = fixes t) by exact (col_fix_fixes t [x]) end. rewrite EF.
  match goal with |- context [input ?a ?b ?l] => assert (EI : input a b l = earr t x) by exact (col_input 0 t [x]) end. rewrite EI.
  rewrite fixed_values by exact Ht. destruct (fixes_keys t) as [ND HK].
  pose proof (own_box t Ht) as OB. pose proof (lin_in_range nen (own t) OB) as OL.
  etransitivity; [exact (col_fix_function_spec dof Hdof (vol nen) (fixes t) ND HK (rowmap r0 t) _ (lin nen (own t)) OL (fun a Ha => row_is_col r0 t a Hr0 Hin Ha) (earr t x) _ c Hc)|].
  rewrite fixes_lookup, own_node, at_, own_node by auto. destruct (presc t c); [reflexivity|].
  rewrite col_accumulate_spec; [reflexivity|lia| | |exact Hc].
  - exact (cw_npts g2 g3 maxint size dim axes user LY Hset CB BT HB dof Hdof e0 sizes visit t).
  - exact (cw_JW g2 g3 maxint size dim axes user LY Hset CB BT HB dof Hdof e0 sizes visit t).
Qed.
(** Its Jacobian: the values of the functions at the point where a value is prescribed, elsewhere the user's matrix. *)
Theorem C108_jacobian : forall (Jacobian : cb1) ins (x : nodal), Forall2 (holds size dof N G) ins (opt_list T ++ [x]) ->
  forall t c u d, in_box zero3 N t -> 0 <= c < dof -> in_box zero3 N u -> 0 <= d < dof ->
  mat Jacobian ins (ix t c) (ix u d) =
  rsum (fun b => if triple_eqb (node t b) u then
      match presc t c with
      | Some _ => if d =? c then shape t (pf t) (lin nen b) else 0%R
      | None => Jacobian t (pf t) 0 (earr t (held presc x)) (fun _ => 0%R) (c * (vol nen * dof) + (lin nen b * dof + d))
      end else 0%R) (box zero3 nen).
Proof using All.
  intros Jacobian ins x Hins t c u d Ht Hc Hu Hd.
  destruct (C104_rows g2 g3 maxint size dim axes user LY Hset CB BT HB dof Hdof e0 sizes L0 order Ho ins _ Hins t Ht) as (r0 & Hr0 & Hin & H).
  destruct (H c Hc) as [_ HM]. clear H. etransitivity; [exact (HM _ u d Hu Hd)|]. unfold colloc_matrix. apply rsum_ext. intros b Hb. change (triple_eqb (node t b) u) with (triple_eqb (elem_node N first t b) u).
  unfold N, first. destruct (triple_eqb _ u); [|reflexivity]. unfold c_jacobian.
  match goal with |- context [col_fix ?a1 ?a2 ?a3 ?a4 ?a5 ?a6 ?a7 ?a8 ?a9 ?a10] =>
    assert (EF : col_fix a1 a2 a3 a4 a5 a6 a7 a8 a9 a10 = fixes t) by exact (col_fix_fixes t [x]) end. rewrite EF.
  match goal with |- context [input ?a ?b ?l] => assert (EI : input a b l = earr t x) by exact (col_input 0 t [x]) end. rewrite EI.
  rewrite fixed_values by exact Ht. destruct (fixes_keys t) as [ND HK].
  pose proof (own_box t Ht) as OB. pose proof (lin_in_range nen (own t) OB) as OL.
  apply In_box in Hb. pose proof (lin_in_range nen b Hb) as L.
  assert (LJ : 0 <= lin nen b * dof + d < vol nen * dof) by (clear - L Hd; nia).
  etransitivity; [exact (col_fix_jacobian_spec dof Hdof (vol nen) (fixes t) ND HK (rowmap r0 t) _ (lin nen (own t)) OL (fun a Ha => row_is_col r0 t a Hr0 Hin Ha) _ _ c _ Hc LJ)|].
  rewrite fixes_lookup, own_node by auto.
  assert (Lf : last_form dim N visit t = pf t) by (unfold last_form; rewrite col_forms_one by lia; reflexivity).
  assert (Q : (lin nen b * dof + d) / dof = lin nen b /\ (lin nen b * dof + d) mod dof = d).
  { split; [symmetry; apply Z.div_unique_pos with d; lia|symmetry; apply Z.mod_unique_pos with (lin nen b); lia]. }
  destruct Q as [Q1 Q2]. rewrite Q1, Q2. unfold N in Lf. rewrite Lf.
  destruct (presc t c); [reflexivity|].
  rewrite col_accumulate_spec; [reflexivity|lia| | |].
  - exact (cw_npts g2 g3 maxint size dim axes user LY Hset CB BT HB dof Hdof e0 sizes visit t).
  - exact (cw_JW g2 g3 maxint size dim axes user LY Hset CB BT HB dof Hdof e0 sizes visit t).
  - unfold col_nmat. clear - LJ Hc. nia.
Qed.
End Nonlinear.
Print Assumptions C108_function.
Print Assumptions C108_jacobian.

(** The quadratic axis over 0,0,0,1,4,5,5,5 on two processes again, with the value 7 at the left end. *)
Lemma ex_value_ok : forall d s, NoDup (map fst (ex_value d s)) /\ forall k, In k (map fst (ex_value d s)) -> 0 <= k.
Proof.
  intros d s. unfold ex_value. destruct (_ && _); cbn [map fst]; (split; [repeat constructor; intros []|]).
  - intros k [<-|[]]. lia.
  - intros k [].
Qed.
Lemma ex_open : forall d, 0 <= d < 1 -> ax_periodic (ex_raxes d) = false.
Proof. intros d Hd. assert (d = 0) as -> by lia. reflexivity. Qed.
Section Example108.
  Variables (ndu0 a0 ders0 : Z -> Z -> R) (l0 r0 : Z -> R).
  Let CB := fun k u p d U => basis_bspline k u p d U ndu0 a0 ders0 l0 r0.
  Let BT := ex_cBT CB.
  Let G := fun r => grid_of 1 (ly_node (ex_cLY r)).
  Let N := node_count 1 ex_raxes.
  Let nen := col_nen BT.
  Let first := col_off BT.
  Let elems := fun r => rank_elements (mk_elem 1 (fun _ => 0) (fun _ => 1) N 0 0 (fun _ => 0) (-1) false) 1 (ly_elem_start (ex_cLY r)) (ly_elem_width (ex_cLY r)) N.
  Let mapping := fun r e => closure (first e) nen (gr_gstart (G r)) (gr_gwidth (G r)).
  Let rowmap := fun r e => row_map (gr_gstart (G r)) (gr_gwidth (G r)) e.
  Let ix := fun t => ao 2 G (lin N t).
  Let per := fun d => ax_periodic (ex_raxes d).
  Let shape := fun (t : triple) (_ : form_visit) a => bt_value (BT 0) (coord t 0) 0 0 a.
  Let vec := fun (Function : cb1) ins => col_compute_vector 2 G 1 elems mapping rowmap
    (fun r => c_function 1 1 nen N first per (fun _ _ => false) ex_value false (tab_npts BT) (col_JW 1 BT) (gr_gstart (G r)) (gr_gwidth (G r)) Function) ins (fun _ _ => 0%R) [1; 0].
  Let mat := fun (Jacobian : cb1) ins => col_compute_matrix 2 G 1 elems mapping rowmap
    (fun r => c_jacobian 1 1 nen N first per (fun _ _ => false) ex_value false (tab_npts BT) (col_JW 1 BT) shape (gr_gstart (G r)) (gr_gwidth (G r)) Jacobian) ins (fun _ _ => 0%R) [1; 0].
  Let presc := node_prescribed 1 per N ex_value None.
  Let E0 := mk_elem 1 (fun _ => 0) (fun _ => 1) N 0 0 (fun _ => 0) (-1) false.
Lemma ex_108 : forall Function V (x : nodal), holds 2 1 N G V x ->
  vec Function [V] (1 * ix (0,0,0) + 0) = (x (0,0,0)%Z 0%Z - 7)%R /\
  vec Function [V] (1 * ix (1,0,0) + 0) = Function (1,0,0) Interior 0 (earr 1 N nen first (1,0,0) (held presc x)) (fun _ => 0%R) 0 /\
  vec Function [V] (1 * ix (4,0,0) + 0) = Function (4,0,0) Interior 0 (earr 1 N nen first (4,0,0) (held presc x)) (fun _ => 0%R) 0.
Proof using.
  intros Function V x HV.
  pose proof (C108_function exact_g2 exact_g3 (2^31-1) 2 1 ex_raxes [-1] ex_cLY ex_csetup_ok ex_open CB BT (ex_ctables CB) 1 ltac:(lia)
    (fun _ => E0) (fun _ => N) (fun _ _ => false) (fun _ _ => 0%R) [1; 0] ex_order ex_value ex_value_ok shape None Function [V] x (Forall2_cons _ _ HV (Forall2_nil _))) as K.
  assert (I0 : in_box zero3 N (0,0,0)) by (cbv; repeat split; congruence).
  assert (I1 : in_box zero3 N (1,0,0)) by (cbv; repeat split; congruence).
  assert (I4 : in_box zero3 N (4,0,0)) by (cbv; repeat split; congruence).
  split; [exact (K (0,0,0) 0 I0 ltac:(lia))|]. split; [exact (K (1,0,0) 0 I1 ltac:(lia))|exact (K (4,0,0) 0 I4 ltac:(lia))].
Qed.
Lemma ex_first1 : first (1,0,0) 0 = 0.
Proof using.
  unfold first. rewrite (col_off_dir 1 ex_raxes CB BT (ex_ctables CB) (1,0,0) 0 ltac:(lia) ltac:(lia)).
  change (ax_p (ex_raxes 0)) with 2. change (ax_m (ex_raxes 0)) with 7. change (ax_U (ex_raxes 0)) with ex_knots. change (ax_nnp (ex_raxes 0)) with 5. change (coord (1,0,0) 0) with 1.
  assert (E : col_span 2 7 ex_knots 5 1 = 2).
  { assert (HV : valid_knots (O:=Rord) 2 7 ex_knots).
    { destruct (col_wf _ _ _ _ _ _ _ _ ex_csetup_ok 0 ltac:(lia)) as (l & (_ & HV & _) & _). exact HV. }
    assert (P : col_point 2 7 ex_knots 5 1 = (1/2)%R).
    { rewrite col_point_eq by lia. unfold greville_abscissa. change (images 2 7 5) with 0. change (zseq 1 2) with [1; 2]. unfold rsum. cbn [map fold_right].
      change (ex_knots (1 + 0 + 1)) with 0%R. change (ex_knots (1 + 0 + 2)) with 1%R. lra. }
    unfold col_span. rewrite P. destruct (find_span_cases _ _ _ HV (1/2)%R _ (span_of_some _ _ _ HV (1/2)%R)) as [B C].
    set (k := span_of 2 7 ex_knots (1/2)%R) in *. clearbody k. change (7 - 2 - 1) with 4 in *.
    assert (Ek : k = 2 \/ k = 3 \/ k = 4) by lia. destruct Ek as [ -> | [ -> | -> ] ]; [reflexivity| |]; exfalso;
      (destruct C as [[C _]|[[_ [C _]]|[_ [C _]]]]; [change (ex_knots 2) with 0%R in C; lra|change (ex_knots (4 + 1)) with 5%R in C; lra|]);
      [change (ex_knots 3) with 1%R in C; lra|change (ex_knots 4) with 4%R in C; lra]. }
  rewrite E. reflexivity.
Qed.
(** With the residual U(0) (the unknown of the first function listed) and its exact derivative as user routines, the row of
    node 1 of the residual does not depend on the prescribed unknown, its Jacobian does. *)
Theorem C108_jacobian_derivative_refuted : exists (Function Jacobian : cb1),
  (forall t f q U Y F K, (Function t f q (fun i => U i + Y i) F 0%Z = Function t f q U F 0%Z + rsum (fun j => Jacobian t f q U K j * Y j) (zseq 0 3))%R) /\
  forall V (x : nodal), holds 2 1 N G V x ->
    vec Function [V] (1 * ix (1,0,0) + 0) = 7%R /\ mat Jacobian [V] (1 * ix (1,0,0) + 0) (1 * ix (0,0,0) + 0) = 1%R.
Proof using.
  exists (fun _ _ _ U _ _ => U 0), (fun _ _ _ _ _ j => if j =? 0 then 1%R else 0%R). split.
  { intros t f q U Y F K. change (zseq 0 3) with [0; 1; 2]. unfold rsum. cbn [map fold_right]. change (0 =? 0) with true. change (1 =? 0) with false. change (2 =? 0) with false. cbv iota. lra. }
  intros V x HV. destruct (ex_108 (fun _ _ _ U _ _ => U 0) V x HV) as (_ & H1 & _).
  assert (I0 : in_box zero3 N (0,0,0)) by (cbv; repeat split; congruence).
  assert (I1 : in_box zero3 N (1,0,0)) by (cbv; repeat split; congruence).
  assert (Hn : forall d, 0 <= d < 3 -> 1 <= nen d) by exact (cw_nen1 _ _ _ _ _ _ _ _ ex_csetup_ok CB BT (ex_ctables CB) 1 ltac:(lia) (fun _ => E0) (fun _ => N)).
  assert (Z0 : in_box zero3 nen (0,0,0)).
  { pose proof (Hn 0 ltac:(lia)). pose proof (Hn 1 ltac:(lia)). pose proof (Hn 2 ltac:(lia)). unfold in_box, zero3. lia. }
  assert (Nd : forall b, in_box zero3 nen b -> elem_node N first (1,0,0) b = b).
  { intros b Hb.
    pose proof (open_node exact_g2 exact_g3 (2^31-1) 2 1 ex_raxes [-1] ex_cLY ex_csetup_ok ex_open CB BT (ex_ctables CB) 1 ltac:(lia) (fun _ => E0) (fun _ => N)
      (fun _ _ => false) (fun _ _ => 0%R) [1; 0] ex_order ex_value ex_value_ok shape None (1,0,0) b I1 Hb) as K.
    etransitivity; [exact K|]. destruct (col_off_unit 1 ex_raxes CB BT (ex_ctables CB) (1,0,0) 1 ltac:(lia) ltac:(lia)) as [X1 _].
    destruct (col_off_unit 1 ex_raxes CB BT (ex_ctables CB) (1,0,0) 2 ltac:(lia) ltac:(lia)) as [X2 _]. destruct b as [[i j] k]. unfold tadd.
    rewrite X1, X2. assert (X0 : col_off BT (1,0,0) 0 = 0) by exact ex_first1. rewrite X0. reflexivity. }
  split.
  - etransitivity; [exact H1|].
    assert (HN : forall d, 0 <= d < 3 -> 1 <= N d).
    { intros d Hd. assert (E : d = 0 \/ d = 1 \/ d = 2) by lia. destruct E as [ -> | [ -> | -> ] ]; cbv; congruence. }
    pose proof (earr_at 1 N nen N first (fun _ _ => false) (tab_npts BT) (col_JW 1 BT) presc (fun _ _ _ => 0%R) ltac:(lia) Hn HN (held presc x) (1,0,0) (0,0,0) 0 Z0 ltac:(lia)) as A.
    replace (lin nen (0,0,0) * 1 + 0) with 0 in A by (unfold lin; ring). rewrite A, Nd by exact Z0. reflexivity.
  - etransitivity; [exact (C108_jacobian exact_g2 exact_g3 (2^31-1) 2 1 ex_raxes [-1] ex_cLY ex_csetup_ok ex_open CB BT (ex_ctables CB) 1 ltac:(lia)
      (fun _ => E0) (fun _ => N) (fun _ _ => false) (fun _ _ => 0%R) [1; 0] ex_order ex_value ex_value_ok shape None (fun _ _ _ _ _ j => if j =? 0 then 1%R else 0%R) [V] x
      (Forall2_cons _ _ HV (Forall2_nil _)) (1,0,0) 0 (0,0,0) 0 I1 ltac:(lia) I0 ltac:(lia))|].
    rewrite (rsum_single _ _ _ (0,0,0)); [|apply NoDup_box|apply In_box; exact Z0|].
    + assert (En : elem_node (node_count 1 ex_raxes) (col_off BT) (1,0,0) (0,0,0) = (0,0,0)) by exact (Nd _ Z0). rewrite En. reflexivity.
    + intros b Hb Hne. apply In_box in Hb. assert (En : elem_node (node_count 1 ex_raxes) (col_off BT) (1,0,0) b = b) by exact (Nd _ Hb). rewrite En.
      destruct (triple_eqb b (0,0,0)) eqn:E; [|reflexivity]. apply triple_eqb_eq in E. contradiction.
Qed.
(** The flux set at the right end is a condition of the linear system (C107) but the nonlinear residual does not know it. *)
Theorem C108_loads_refuted : exists load t, 
  (exists coef, condition 1 N ex_value load (shape t Interior) (fun d s a => rsum (fun i => bt_value (BT 0%Z) (coord t 0%Z) 0%Z 1%Z a * axis_normal d s i)%R (zseq 0 1)) t 0 = Some (coef, 3%R)) /\
  forall Function V (x : nodal), holds 2 1 N G V x ->
    vec Function [V] (1 * ix t + 0) = Function t Interior 0 (earr 1 N nen first t (held presc x)) (fun _ => 0%R) 0.
Proof using.
  exists ex_load, (4,0,0). split; [eexists; reflexivity|]. intros Function V x HV. exact (proj2 (proj2 (ex_108 Function V x HV))).
Qed.
End Example108.
Example C108_example : forall ndu0 a0 ders0 l0 r0 Function V x, _ := fun ndu0 a0 ders0 l0 r0 Function V x => ex_108 ndu0 a0 ders0 l0 r0 Function V x.
Print Assumptions C108_jacobian_derivative_refuted.
Print Assumptions C108_loads_refuted.
