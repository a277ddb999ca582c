(** C107: boundary conditions in the linear systems of the collocation method. *)
From Coq Require Import ZArith List Bool Lia Reals Lra Permutation Sorted.
From Coq Require Import ZifyBool ZifyNat.
From Verif Require Import Prelude RealOrd AxisModel AxisSpec AxisInitModel PartModel PartSpec PartProofs SetupModel SetupProofs SetupProps CollocProofs
  GridModel GridSpec GridProofs GridProofs2 GridSetup GridProps ElemModel ElemProofs ElemProps AsmProofs
  BCModel BCSpec BCProofs BCProofs2 DrvModel DrvSpec DrvProofs RuleModel RuleProps MapModel TabModel BasModel ColModel ColSpec ColProofs ColProofs2 ColProofs3 ColProofs4 ColProofs5 ColProps ColProps2.
From Verif Require Import ElemSpec Box.
Import ListNotations.
Open Scope Z_scope.

Section Conditions.
  Variables (g2 : Z -> Z -> Z -> Z) (g3 : Z -> Z -> Z -> Z -> Z) (maxint size dim : Z) (axes : Z -> axis Rord) (user : list Z)
            (LY : Z -> layout).
  Hypothesis Hset : col_setup_ok g2 g3 maxint size dim axes user LY.
  Variable CB : Z -> R -> Z -> Z -> (Z -> R) -> Z -> Z -> R.
  Variable BT : Z -> btable.
  Hypothesis HB : col_tables CB dim axes BT.
  Variable dof : Z.
  Hypothesis Hdof : 1 <= dof.
  Variables (e0 : Z -> elem) (sizes : Z -> Z -> Z).
  Variable visit : Z -> Z -> bool.
  Variable L0 : Z -> Z -> R.
  Variable order : list Z.
  Hypothesis Ho : Permutation order (zseq 0 size).
  Variables value load : Z -> Z -> list (Z * R).
  Variable shape : triple -> form_visit -> Z -> R.
  Variable dshape : triple -> form_visit -> Z -> Z -> R.
  Variable normal : triple -> form_visit -> Z -> Z -> Z -> R.
  Hypothesis Hval : forall d s c v, In (c, v) (value d s) -> 0 <= c < dof.
  Hypothesis Hload : forall d s c v, In (c, v) (load d s) -> 0 <= c < dof.
  Let N := node_count dim axes.
  Let G := fun r => grid_of dof (ly_node (LY r)).
  Let elems := fun r => rank_elements (e0 r) dim (ly_elem_start (LY r)) (ly_elem_width (LY r)) (sizes r).
  Let nen := col_nen BT.
  Let first := col_off BT.
  Let mapping := fun r e => closure (first e) nen (gr_gstart (G r)) (gr_gwidth (G r)).
  Let rowmap := fun r e => row_map (gr_gstart (G r)) (gr_gwidth (G r)) e.
  Let ix := fun (t : triple) (c : Z) => dof * ao size G (lin N t) + c.
  Let npts := tab_npts BT.
  Let JW := col_JW dim BT.
  Let node := elem_node N first.
  (** IGAComputeSystem *)
  Let kernel := fun (SysK SysF : cb0) => c_system dim dof nen N visit value load npts JW shape dshape normal SysK SysF.
  Let vec := fun SysK SysF ins => col_compute_vector size G dof elems mapping rowmap (fun _ e i => snd (kernel SysK SysF e i)) ins L0 order.
  Let mat := fun SysK SysF ins => col_compute_matrix size G dof elems mapping rowmap (fun _ e i => fst (kernel SysK SysF e i)) ins L0 order.
  (** the condition on component c of node t, with the functions and derivatives at its point *)
  Let cond := fun t c => let f := point_form dim N visit t in
    condition dim N value load (shape t f) (fun d s a => rsum (fun i => dshape t f a i * normal t f d s i)%R (zseq 0 dim)) t c.

(** The equation of component c at node t is the last condition set on a face through t, its coefficients only on
    component c; without one it is the user's. *)
Theorem C107_rows : forall SysK SysF ins nat_ins, Forall2 (holds size dof N G) ins nat_ins ->
  forall t c, in_box zero3 N t -> 0 <= c < dof ->
  match cond t c with
  | Some (coef, v) => vec SysK SysF ins (ix t c) = v /\
      forall u d, in_box zero3 N u -> 0 <= d < dof -> mat SysK SysF ins (ix t c) (ix u d) =
        if d =? c then rsum (fun b => if triple_eqb (node t b) u then coef (lin nen b) else 0%R) (box zero3 nen) else 0%R
  | None => vec SysK SysF ins (ix t c) = SysF t (point_form dim N visit t) 0 (fun _ => 0%R) c /\
      forall u d, in_box zero3 N u -> 0 <= d < dof -> mat SysK SysF ins (ix t c) (ix u d) =
        rsum (fun b => if triple_eqb (node t b) u
                       then SysK t (point_form dim N visit t) 0 (fun _ => 0%R) (c * (vol nen * dof) + (lin nen b * dof + d)) else 0%R)
             (box zero3 nen)
  end.
Proof using All.
  intros SysK SysF ins nat_ins Hins t c Ht Hc.
  destruct (C104_rows g2 g3 maxint size dim axes user LY Hset CB BT HB dof Hdof e0 sizes L0 order Ho ins nat_ins Hins t Ht) as (r0 & _ & _ & H).
  destruct (H c Hc) as [HV HM]. clear H.
  assert (HD : 1 <= dim <= 3) by exact (cw_dim g2 g3 maxint size dim axes user LY Hset CB BT HB dof Hdof e0 sizes).
  assert (Hn : forall d, 0 <= d < 3 -> 1 <= nen d) by exact (cw_nen1 g2 g3 maxint size dim axes user LY Hset CB BT HB dof Hdof e0 sizes).
  assert (Hvol : 0 <= vol nen).
  { unfold vol. pose proof (Hn 0 ltac:(lia)). pose proof (Hn 1 ltac:(lia)). pose proof (Hn 2 ltac:(lia)). clear - H H0 H1. nia. }
  set (f := point_form dim N visit t).
  assert (Lf : last_form dim N visit t = f) by (unfold last_form; rewrite col_forms_one by lia; reflexivity).
  set (A := col_accumulate dim N visit npts JW (col_nmat dof nen) t (fun f q K => SysK t f q K)).
  set (B := col_accumulate dim N visit npts JW (col_nvec dof) t (fun f q F => SysF t f q F)).
  assert (EA : forall j, 0 <= j < vol nen * dof -> A (c * (vol nen * dof) + j) = SysK t f 0 work (c * (vol nen * dof) + j)).
  { intros j Hj. unfold A. rewrite col_accumulate_spec; [reflexivity|lia| | |].
    - exact (cw_npts g2 g3 maxint size dim axes user LY Hset CB BT HB dof Hdof e0 sizes visit t).
    - exact (cw_JW g2 g3 maxint size dim axes user LY Hset CB BT HB dof Hdof e0 sizes visit t).
    - unfold col_nmat. clear - Hj Hc. nia. }
  assert (EB : B c = SysF t f 0 work c).
  { unfold B. rewrite col_accumulate_spec; [reflexivity|lia| | |exact Hc].
    - exact (cw_npts g2 g3 maxint size dim axes user LY Hset CB BT HB dof Hdof e0 sizes visit t).
    - exact (cw_JW g2 g3 maxint size dim axes user LY Hset CB BT HB dof Hdof e0 sizes visit t). }
  assert (EK : forall i, kernel SysK SysF t i = apply_conditions dof (vol nen)
     (conditions dim N value load (shape t f) (fun d s a => rsum (fun i => dshape t f a i * normal t f d s i)%R (zseq 0 dim)) t) (A, B)).
  { intros i. unfold kernel, c_system. cbv zeta. rewrite Lf. apply col_fix_system_conditions. }
  pose proof (apply_conditions_row dof (vol nen) Hdof Hvol
     (conditions dim N value load (shape t f) (fun d s a => rsum (fun i => dshape t f a i * normal t f d s i)%R (zseq 0 dim)) t) (A, B) c Hc) as R.
  match type of R with ?P -> _ => assert (HP : P) end.
  { intros x Hx. unfold conditions in Hx. apply in_flat_map in Hx. destruct Hx as ([d s] & _ & Hx).
    destruct (coord t d =? _); [|destruct Hx]. apply in_app_iff in Hx. destruct Hx as [Hx|Hx]; apply in_map_iff in Hx; destruct Hx as ([k v] & <- & Hx); cbn [fst snd];
      [exact (Hload d s k v Hx)|exact (Hval d s k v Hx)]. }
  specialize (R HP). unfold row_is in R.
  assert (LR : forall b d, In b (box zero3 nen) -> 0 <= d < dof -> 0 <= lin nen b * dof + d < vol nen * dof /\ (lin nen b * dof + d) / dof = lin nen b /\ (lin nen b * dof + d) mod dof = d).
  { intros b d Hb Hd. apply In_box in Hb. pose proof (lin_in_range nen b Hb) as L. split; [clear - L Hd; nia|].
    split; [symmetry; apply Z.div_unique_pos with d; lia|symmetry; apply Z.mod_unique_pos with (lin nen b); lia]. }
  change (cond t c) with (fold_left (fun cur x => if fst (fst x) =? c then Some (snd (fst x), snd x) else cur)
    (conditions dim N value load (shape t f) (fun d s a => rsum (fun i => dshape t f a i * normal t f d s i)%R (zseq 0 dim)) t) None).
  destruct (fold_left _ _ None) as [[coef v]|]; destruct R as [R1 R2].
  - split.
    + etransitivity; [exact (HV (fun _ e i => snd (kernel SysK SysF e i)))|]. cbv beta. rewrite EK. exact R2.
    + intros u d Hu Hd. etransitivity; [exact (HM (fun _ e i => fst (kernel SysK SysF e i)) u d Hu Hd)|]. unfold colloc_matrix. cbv beta.
      rewrite EK. destruct (d =? c) eqn:Ed.
      * apply rsum_ext. intros b Hb. unfold node. destruct (triple_eqb _ u); [|reflexivity]. destruct (LR b d Hb Hd) as (L1 & L2 & L3).
        etransitivity; [exact (R1 _ L1)|]. rewrite L2, L3, Ed. reflexivity.
      * apply rsum_zero. intros b Hb. destruct (triple_eqb _ u); [|reflexivity]. destruct (LR b d Hb Hd) as (L1 & L2 & L3).
        etransitivity; [exact (R1 _ L1)|]. rewrite L3, Ed. reflexivity.
  - cbn [fst snd] in R1, R2. split.
    + etransitivity; [exact (HV (fun _ e i => snd (kernel SysK SysF e i)))|]. cbv beta. rewrite EK, R2. exact EB.
    + intros u d Hu Hd. etransitivity; [exact (HM (fun _ e i => fst (kernel SysK SysF e i)) u d Hu Hd)|]. unfold colloc_matrix. cbv beta.
      rewrite EK. apply rsum_ext. intros b Hb. unfold node. destruct (triple_eqb _ u); [|reflexivity]. destruct (LR b d Hb Hd) as (L1 & _).
      etransitivity; [exact (R1 _ L1)|]. apply EA. exact L1.
Qed.

(** A solution of the system satisfies the condition at the collocation point: the discrete function (or its derivative
    along the normal) has the value that was set; on the other rows it solves the user's equations. *)
Theorem C107_solution : forall SysK SysF ins nat_ins, Forall2 (holds size dof N G) ins nat_ins ->
  forall (x : nodal) t c, in_box zero3 N t -> 0 <= c < dof ->
  (rsum (fun u => rsum (fun d => mat SysK SysF ins (ix t c) (ix u d) * x u d)%R (zseq 0 dof)) (box zero3 N) = vec SysK SysF ins (ix t c) <->
   match cond t c with
   | Some (coef, v) => rsum (fun b => coef (lin nen b) * x (node t b) c)%R (box zero3 nen) = v
   | None => rsum (fun b => rsum (fun d => SysK t (point_form dim N visit t) 0%Z (fun _ => 0%R) (c * (vol nen * dof) + (lin nen b * dof + d))%Z * x (node t b) d)%R
                                 (zseq 0 dof)) (box zero3 nen) = SysF t (point_form dim N visit t) 0 (fun _ => 0%R) c
   end).
Proof using All.
  intros SysK SysF ins nat_ins Hins x t c Ht Hc. pose proof (C107_rows SysK SysF ins nat_ins Hins t c Ht Hc) as RW.
  assert (Swap : forall k : triple -> Z -> R,
    rsum (fun u => rsum (fun d => rsum (fun b => if triple_eqb (node t b) u then k b d else 0%R) (box zero3 nen) * x u d)%R (zseq 0 dof)) (box zero3 N) =
    rsum (fun b => rsum (fun d => k b d * x (node t b) d)%R (zseq 0 dof)) (box zero3 nen)).
  { intros k.
    rewrite (rsum_ext _ _ (fun u => rsum (fun d => rsum (fun b => if triple_eqb (node t b) u then k b d * x u d else 0%R)%R (box zero3 nen)) (zseq 0 dof))).
    2:{ intros u _. apply rsum_ext. intros d _. rewrite Rmult_comm, <- rsum_scal. apply rsum_ext. intros b _. destruct (triple_eqb _ u); lra. }
    rewrite (rsum_ext _ _ (fun u => rsum (fun b => rsum (fun d => if triple_eqb (node t b) u then k b d * x u d else 0%R)%R (zseq 0 dof)) (box zero3 nen))) by (intros; apply rsum_comm).
    rewrite rsum_comm. apply rsum_ext. intros b Hb.
    rewrite (rsum_single _ _ _ (node t b)); [|apply NoDup_box| |].
    - apply rsum_ext. intros d _. rewrite (proj2 (triple_eqb_eq _ _) eq_refl). reflexivity.
    - apply In_box. unfold node, elem_node.
      exact (modbox_in size dof N G (cw_world g2 g3 maxint size dim axes user LY Hset CB BT HB dof Hdof e0 sizes) _).
    - intros u _ Hu. apply rsum_zero. intros d _. destruct (triple_eqb (node t b) u) eqn:E; auto. apply triple_eqb_eq in E. congruence. }
  destruct (cond t c) as [[coef v]|]; destruct RW as [R1 R2]; rewrite R1.
  - rewrite (rsum_ext _ _ (fun u => rsum (fun d => rsum (fun b => if triple_eqb (node t b) u then (if d =? c then coef (lin nen b) else 0)%R else 0%R) (box zero3 nen) * x u d)%R (zseq 0 dof))).
    2:{ intros u Hu. apply In_box in Hu. apply rsum_ext. intros d Hd. apply in_zseq in Hd. rewrite R2 by (auto; lia). f_equal.
        destruct (d =? c); [reflexivity|]. symmetry. apply rsum_zero. intros b _. destruct (triple_eqb _ u); reflexivity. }
    rewrite (Swap (fun b d => if d =? c then coef (lin nen b) else 0%R)).
    rewrite (rsum_ext _ _ (fun b => (coef (lin nen b) * x (node t b) c)%R)); [reflexivity|].
    intros b _. rewrite (rsum_single _ _ _ c); [rewrite Z.eqb_refl; reflexivity|apply NoDup_zseq|apply in_zseq; lia|].
    intros d _ Hd. replace (d =? c) with false by lia. lra.
  - rewrite (rsum_ext _ _ (fun u => rsum (fun d => rsum (fun b => if triple_eqb (node t b) u
        then SysK t (point_form dim N visit t) 0%Z (fun _ => 0%R) (c * (vol nen * dof) + (lin nen b * dof + d))%Z else 0%R) (box zero3 nen) * x u d)%R (zseq 0 dof))).
    2:{ intros u Hu. apply In_box in Hu. apply rsum_ext. intros d Hd. apply in_zseq in Hd. rewrite R2 by (auto; lia). reflexivity. }
    rewrite (Swap (fun b d => SysK t (point_form dim N visit t) 0%Z (fun _ => 0%R) (c * (vol nen * dof) + (lin nen b * dof + d))%Z)). reflexivity.
Qed.
End Conditions.
Print Assumptions C107_rows.
Print Assumptions C107_solution.

(** In one dimension, with an open knot vector and no geometry, a value condition fixes the unknown of the end node. *)
Theorem C107_open_end : forall ndu0 a0 ders0 l0 r0 g2 g3 maxint size (axes : Z -> axis Rord) user LY BT,
  let CB := fun k u p d U => basis_bspline k u p d U ndu0 a0 ders0 l0 r0 in
  col_setup_ok g2 g3 maxint size 1 axes user LY -> col_tables CB 1 axes BT ->
  let A := axes 0 in let p := ax_p A in let m := ax_m A in
  ax_periodic A = false -> ax_U A 1 = ax_U A p -> ax_U A (m-p) = ax_U A (m-1) ->
  forall (x : nodal) c t, t = (0, 0, 0) \/ t = (ax_nnp A - 1, 0, 0) ->
  rsum (fun b => bt_value (BT 0%Z) (coord t 0%Z) 0%Z 0%Z (lin (col_nen BT) b) * x (elem_node (node_count 1%Z axes) (col_off BT) t b) c)%R
       (box zero3 (col_nen BT)) = x t c.
Proof.
  intros ndu0 a0 ders0 l0 r0 g2 g3 maxint size axes user LY BT CB Hset HB A p m Hper HU1 HU2 x c t Ht.
  destruct (col_wf g2 g3 maxint size 1 axes user LY Hset 0 ltac:(lia)) as (l & L & HE & _). pose proof L as (_ & HV & _ & _ & Hn).
  fold A in L, HE, HV, Hn. fold p m in HV, HE, Hn. rewrite Hper in Hn.
  pose proof (HB 0 ltac:(lia)) as E'. unfold setup_colloc in E'. change (0 <? 1) with true in E'. cbv iota in E'. fold A in E'. rewrite Hn in E'. fold p m in E'.
  destruct (C102_open ndu0 a0 ders0 l0 r0 _ _ _ _ HV HE HU1 HU2 E') as (_ & _ & _ & O0 & O1 & V0 & V1 & _ & _).
  destruct HV as (Hp & Hm & _).
  assert (N0 : col_nen BT 0 = p + 1).
  { pose proof (col_nen_dir 1 axes CB BT HB 0 ltac:(lia) ltac:(lia)) as K. exact K. }
  assert (N1 : col_nen BT 1 = 1) by exact (proj2 (col_off_unit 1 axes CB BT HB t 1 ltac:(lia) ltac:(lia))).
  assert (N2 : col_nen BT 2 = 1) by exact (proj2 (col_off_unit 1 axes CB BT HB t 2 ltac:(lia) ltac:(lia))).
  assert (F1 : col_off BT t 1 = 0) by exact (proj1 (col_off_unit 1 axes CB BT HB t 1 ltac:(lia) ltac:(lia))).
  assert (F2 : col_off BT t 2 = 0) by exact (proj1 (col_off_unit 1 axes CB BT HB t 2 ltac:(lia) ltac:(lia))).
  set (k := if coord t 0 =? 0 then 0 else p).
  assert (Hnn : ax_nnp A = m - p) by exact Hn.
  assert (HT : coord t 0 = (if coord t 0 =? 0 then 0 else m - p - 1) /\ t = (coord t 0, 0, 0)).
  { destruct Ht as [ -> | -> ]; cbn [coord]; change (0 =? 0) with true; [split; reflexivity|]. split; [|reflexivity].
    change (ax_nnp A - 1 = (if ax_nnp A - 1 =? 0 then 0 else m - p - 1)). rewrite Hnn. destruct (m - p - 1 =? 0) eqn:E; lia. }
  destruct HT as [HT1 HT2].
  assert (VK : forall a, 0 <= a <= p -> bt_value (BT 0) (coord t 0) 0 0 a = if a =? k then 1%R else 0%R).
  { intros a Ha. unfold k. destruct (coord t 0 =? 0) eqn:E; rewrite HT1; [apply V0; auto|apply V1; auto]. }
  assert (OK : col_off BT t 0 + k = coord t 0).
  { unfold k, col_off. destruct (coord t 0 =? 0) eqn:E; rewrite HT1; [rewrite O0|rewrite O1]; lia. }
  assert (Hin : In (k, 0, 0) (box zero3 (col_nen BT))).
  { apply In_box. unfold in_box, zero3. rewrite N0, N1, N2. unfold k. destruct (coord t 0 =? 0); lia. }
  rewrite (rsum_single _ _ _ (k, 0, 0)); [|apply NoDup_box|exact Hin|].
  - assert (El : lin (col_nen BT) (k, 0, 0) = k) by (unfold lin; ring). rewrite El.
    rewrite VK by (unfold k; destruct (coord t 0 =? 0); lia). rewrite Z.eqb_refl.
    assert (En : elem_node (node_count 1 axes) (col_off BT) t (k, 0, 0) = t).
    { unfold elem_node, tadd, modbox. rewrite F1, F2, OK. unfold node_count. change (0 <? 1) with true. change (1 <? 1) with false. change (2 <? 1) with false. cbv iota. fold A.
      assert (Em : coord t 0 mod ax_nnp A = coord t 0) by (apply Z.mod_small; rewrite Hnn; destruct (coord t 0 =? 0); lia).
      rewrite Em. symmetry. exact HT2. }
    rewrite En. lra.
  - intros [[i j] q] Hb Hne. apply In_box in Hb. unfold in_box, zero3 in Hb. rewrite N0, N1, N2 in Hb.
    assert (j = 0) by lia. assert (q = 0) by lia. subst j q.
    assert (El : lin (col_nen BT) (i, 0, 0) = i) by (unfold lin; ring). rewrite El. rewrite VK by lia.
    destruct (i =? k) eqn:E; [|lra]. exfalso. apply Hne. replace i with k by lia. reflexivity.
Qed.
Print Assumptions C107_open_end.

(** Two processes share the five nodes of a quadratic axis over the knots 0,0,0,1,4,5,5,5; the value 7 is set at the left
    end and the flux 3 at the right one. *)
Definition ex_value (d s : Z) : list (Z * R) := if (d =? 0) && (s =? 0) then [(0, 7%R)] else [].
Definition ex_load (d s : Z) : list (Z * R) := if (d =? 0) && (s =? 1) then [(0, 3%R)] else [].
Section Example107.
  Variables (ndu0 a0 ders0 : Z -> Z -> R) (l0 r0 : Z -> R).
  Let CB := fun k u p d U => basis_bspline k u p d U ndu0 a0 ders0 l0 r0.
  Let BT := ex_cBT CB.
  Let G := fun r => grid_of 1 (ly_node (ex_cLY r)).
  Let N := node_count 1 ex_raxes.
  Let first := col_off BT.
  Let elems := fun r => rank_elements (mk_elem 1 (fun _ => 0) (fun _ => 1) N 0 0 (fun _ => 0) (-1) false) 1 (ly_elem_start (ex_cLY r)) (ly_elem_width (ex_cLY r)) N.
  Let mapping := fun r e => closure (first e) (col_nen BT) (gr_gstart (G r)) (gr_gwidth (G r)).
  Let rowmap := fun r e => row_map (gr_gstart (G r)) (gr_gwidth (G r)) e.
  Let ix := fun t => ao 2 G (lin N t).
  Let kernel := fun (SysK SysF : cb0) => c_system 1 1 (col_nen BT) N (fun _ _ => false) ex_value ex_load (tab_npts BT) (col_JW 1 BT)
    (fun t _ a => bt_value (BT 0) (coord t 0) 0 0 a) (fun t _ a _ => bt_value (BT 0) (coord t 0) 0 1 a) (fun _ _ => axis_normal) SysK SysF.
  Let vec := fun SysK SysF ins => col_compute_vector 2 G 1 elems mapping rowmap (fun _ e i => snd (kernel SysK SysF e i)) ins (fun _ _ => 0%R) [1; 0].
  Let mat := fun SysK SysF ins => col_compute_matrix 2 G 1 elems mapping rowmap (fun _ e i => fst (kernel SysK SysF e i)) ins (fun _ _ => 0%R) [1; 0].
  Let row := fun SysK SysF ins (x : nodal) t => rsum (fun u => rsum (fun d => mat SysK SysF ins (1 * ix t + 0)%Z (1 * ix u + d)%Z * x u d)%R (zseq 0 1)) (box zero3 N).
Lemma ex_conditions : (forall d s c v, In (c, v) (ex_value d s) -> 0 <= c < 1) /\ (forall d s c v, In (c, v) (ex_load d s) -> 0 <= c < 1).
Proof.
  split; intros d s c v H; unfold ex_value, ex_load in H; destruct (_ && _); cbn in H; try contradiction; destruct H as [[= <- _]|[]]; lia.
Qed.
Lemma ex_order : Permutation [1; 0] (zseq 0 2).
Proof. apply perm_swap. Qed.
(** holds for every input, so also with a fix table set (the first input, see DrvModel) *)
Lemma ex_107 : forall SysK SysF ins nat_ins, Forall2 (holds 2 1 N G) ins nat_ins -> forall x : nodal,
  (row SysK SysF ins x (0,0,0) = vec SysK SysF ins (1 * ix (0,0,0) + 0) <-> x (0,0,0) 0 = 7%R) /\
  (row SysK SysF ins x (4,0,0) = vec SysK SysF ins (1 * ix (4,0,0) + 0) <->
     rsum (fun b => (bt_value (BT 0%Z) 4%Z 0%Z 1%Z (lin (col_nen BT) b) * 1 + 0) * x (elem_node N first (4,0,0)%Z b) 0%Z)%R (box zero3 (col_nen BT)) = 3%R) /\
  vec SysK SysF ins (1 * ix (2,0,0) + 0) = SysF (2,0,0) Interior 0 (fun _ => 0%R) 0 /\
  vec SysK SysF ins (1 * ix (0,0,0) + 0) = 7%R.
Proof using.
  intros SysK SysF ins nat_ins Hins x.
  pose proof (C107_solution exact_g2 exact_g3 (2^31-1) 2 1 ex_raxes [-1] ex_cLY ex_csetup_ok CB BT (ex_ctables CB) 1 ltac:(lia)
    (fun _ => mk_elem 1 (fun _ => 0) (fun _ => 1) N 0 0 (fun _ => 0) (-1) false) (fun _ => N) (fun _ _ => false) (fun _ _ => 0%R) [1; 0] ex_order
    ex_value ex_load (fun t _ a => bt_value (BT 0) (coord t 0) 0 0 a) (fun t _ a _ => bt_value (BT 0) (coord t 0) 0 1 a) (fun _ _ => axis_normal)
    (proj1 ex_conditions) (proj2 ex_conditions) SysK SysF ins nat_ins Hins x) as K.
  pose proof (C107_rows exact_g2 exact_g3 (2^31-1) 2 1 ex_raxes [-1] ex_cLY ex_csetup_ok CB BT (ex_ctables CB) 1 ltac:(lia)
    (fun _ => mk_elem 1 (fun _ => 0) (fun _ => 1) N 0 0 (fun _ => 0) (-1) false) (fun _ => N) (fun _ _ => false) (fun _ _ => 0%R) [1; 0] ex_order
    ex_value ex_load (fun t _ a => bt_value (BT 0) (coord t 0) 0 0 a) (fun t _ a _ => bt_value (BT 0) (coord t 0) 0 1 a) (fun _ _ => axis_normal)
    (proj1 ex_conditions) (proj2 ex_conditions) SysK SysF ins nat_ins Hins) as K'.
  assert (I0 : in_box zero3 N (0,0,0)) by (cbv; repeat split; congruence).
  assert (I2 : in_box zero3 N (2,0,0)) by (cbv; repeat split; congruence).
  assert (I4 : in_box zero3 N (4,0,0)) by (cbv; repeat split; congruence).
  split; [|split; [|split]].
  - rewrite <- (C107_open_end ndu0 a0 ders0 l0 r0 exact_g2 exact_g3 (2^31-1) 2 ex_raxes [-1] ex_cLY BT ex_csetup_ok (ex_ctables CB) eq_refl eq_refl eq_refl x 0 (0,0,0) (or_introl eq_refl)).
    exact (K (0,0,0) 0 I0 ltac:(lia)).
  - assert (E : rsum (fun b => (bt_value (BT 0%Z) 4%Z 0%Z 1%Z (lin (col_nen BT) b) * 1 + 0) * x (elem_node N first (4,0,0)%Z b) 0%Z)%R (box zero3 (col_nen BT)) =
      rsum (fun b => rsum (fun i => bt_value (BT 0%Z) 4%Z 0%Z 1%Z (lin (col_nen BT) b) * axis_normal 0%Z 1%Z i)%R (zseq 0 1) * x (elem_node N first (4,0,0)%Z b) 0%Z)%R (box zero3 (col_nen BT))).
    { apply rsum_ext. intros b _. change (zseq 0 1) with [0]. unfold rsum. cbn [map fold_right]. unfold axis_normal. change (0 =? 0) with true. change (1 =? 0) with false. cbv iota. reflexivity. }
    rewrite E. exact (K (4,0,0) 0 I4 ltac:(lia)).
  - exact (proj1 (K' (2,0,0) 0 I2 ltac:(lia))).
  - exact (proj1 (K' (0,0,0) 0 I0 ltac:(lia))).
Qed.
(** With a fix table (IGASetFixTable) the Galerkin system prescribes the table's values; this one does not look at it. *)
Theorem C62_assembled_collocation_fix_table_refuted : exists (T : nodal) ins, Forall2 (holds 2 1 N G) ins [T] /\
  node_prescribed 1 (fun _ => false) N ex_value (Some T) (0,0,0) 0 = Some 5%R /\
  forall SysK SysF, vec SysK SysF ins (1 * ix (0,0,0) + 0) = 7%R.
Proof using.
  exists (fun _ _ => 5%R), [fun _ => 5%R].
  assert (H : Forall2 (holds 2 1 N G) [fun _ => 5%R] [fun _ _ => 5%R]).
  { constructor; [|constructor]. intros t c _ _. reflexivity. }
  split; [exact H|]. split; [reflexivity|]. intros SysK SysF. exact (proj2 (proj2 (proj2 (ex_107 SysK SysF _ _ H (fun _ _ => 0%R))))).
Qed.
End Example107.
Print Assumptions C62_assembled_collocation_fix_table_refuted.
Example C107_example : forall SysK SysF ndu0 a0 ders0 l0 r0 (x : nodal), _ := fun SysK SysF ndu0 a0 ders0 l0 r0 x => ex_107 ndu0 a0 ders0 l0 r0 SysK SysF [] [] (Forall2_nil _) x.

(** The normal used without a geometry: unit, orthogonal to the face, pointing out of the box of parameters. *)
Theorem C107_normal : forall dim (lo hi : Z -> R) dir side (x : Z -> R) eps,
  0 <= dir < dim -> side = 0 \/ side = 1 -> (0 < eps)%R ->
  (forall i, 0 <= i < dim -> (lo i <= x i <= hi i)%R) -> x dir = (if side =? 0 then lo dir else hi dir) ->
  (forall i, 0 <= i < dim -> i <> dir -> axis_normal dir side i = 0%R) /\
  (axis_normal dir side dir * axis_normal dir side dir = 1)%R /\
  ~ (lo dir <= x dir + eps * axis_normal dir side dir <= hi dir)%R.
Proof.
  intros dim lo hi dir side x eps Hd Hs He Hb Hx. specialize (Hb dir Hd). unfold axis_normal. rewrite Z.eqb_refl.
  split; [intros i Hi Hn; replace (i =? dir) with false by lia; reflexivity|].
  destruct Hs as [-> | ->].
  - change (0 =? 0) with true in *. cbv iota in *. split; lra.
  - change (1 =? 0) with false in *. cbv iota in *. split; lra.
Qed.
Print Assumptions C107_normal.
