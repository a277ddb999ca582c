(** C103, C104: the rows of the collocation method. *)
From Coq Require Import ZArith List Bool Lia Reals Lra Permutation Sorted.
From Coq Require Import ZifyBool ZifyNat.
From Verif Require Import Prelude RealOrd AxisModel AxisSpec AxisInitModel PartModel PartSpec PartProofs SetupModel SetupProofs SetupProps CollocProofs
  GridModel GridSpec GridProofs GridProofs2 GridSetup GridProps ElemModel ElemProofs ElemProps AsmProofs
  BCModel BCSpec DrvModel DrvSpec DrvProofs RuleModel RuleProps MapModel TabModel BasModel ColModel ColSpec ColProofs ColProofs2 ColProofs3 ColProofs4 ColProps.
From Verif Require Import ElemSpec Box.
Import ListNotations.
Open Scope Z_scope.

(** * C103 *)
(** While the element iterator stands at a collocation point the loop over forms visits exactly one of them, on the
    first face through the node that has a boundary form or else the interior, and leaves the iterator as it was. *)
Theorem C103_one_form : forall visit e fuel, 0 <= el_dim e <= 3 -> el_bid e = -1 -> el_atb e = false -> (2 <= fuel)%nat ->
  col_form_loop fuel visit e = Some ([point_form (el_dim e) (el_sizes e) visit (el_triple e)], e) /\
  let f := point_form (el_dim e) (el_sizes e) visit (el_triple e) in
  (f = Interior <-> forall axis side, 0 <= axis < el_dim e -> side = 0 \/ side = 1 ->
     visit axis side = true -> coord (el_triple e) axis <> (if side =? 0 then 0 else el_sizes e axis - 1)) /\
  (forall axis side, f = Face axis side <->
     (0 <= axis < el_dim e /\ (side = 0 \/ side = 1) /\ visit axis side = true /\
      coord (el_triple e) axis = (if side =? 0 then 0 else el_sizes e axis - 1)) /\
     forall axis' side', 0 <= axis' < el_dim e -> side' = 0 \/ side' = 1 -> 2 * axis' + side' < 2 * axis + side ->
       visit axis' side' = true -> coord (el_triple e) axis' <> (if side' =? 0 then 0 else el_sizes e axis' - 1)).
Proof.
  intros visit e fuel Hd Hb Ha Hfuel. split.
  { destruct fuel as [|[|fuel]]; [lia|lia|]. apply col_form_loop_rest; auto. }
  cbv zeta. generalize (el_triple e) as t. generalize (el_sizes e) as nnp. revert Hd. generalize (el_dim e) as dim. clear.
  intros dim Hd nnp t.
  set (P := fun f : Z * Z => visit (fst f) (snd f) && (coord t (fst f) =? (if snd f =? 0 then 0 else nnp (fst f) - 1))).
  assert (EP : point_form dim nnp visit t = match filter P (faces dim) with f :: _ => Face (fst f) (snd f) | [] => Interior end).
  { unfold point_form, pieces. fold P. destruct (filter P (faces dim)); reflexivity. }
  assert (HP : forall a s, P (a, s) = true <-> visit a s = true /\ coord t a = (if s =? 0 then 0 else nnp a - 1)).
  { intros a s. unfold P. cbn [fst snd]. rewrite andb_true_iff, Z.eqb_eq. reflexivity. }
  assert (HS : forall l1 x l2, faces dim = l1 ++ x :: l2 -> forall y, In y l1 <-> In y (faces dim) /\ 2 * fst y + snd y < 2 * fst x + snd x).
  { assert (HD : dim = 0 \/ dim = 1 \/ dim = 2 \/ dim = 3) by lia.
    assert (Srt : StronglySorted (fun x y : Z * Z => 2 * fst x + snd x < 2 * fst y + snd y) (faces dim)).
    { destruct HD as [->|[->|[->| ->]]]; cbn; repeat (constructor; cbn [fst snd]; try lia). }
    intros l1 x l2 E y. rewrite E in *. clear - Srt. revert Srt.
    induction l1 as [|z l1 IH]; cbn [app In]; intros Srt.
    - inversion Srt as [|? ? Srt' HF]; subst. split; [intros []|]. intros [[->|Hy] L]; [lia|].
      rewrite Forall_forall in HF. specialize (HF y Hy). lia.
    - inversion Srt as [|? ? Srt' HF]; subst. rewrite Forall_forall in HF. specialize (IH Srt'). rewrite IH. split.
      + intros [->|[H1 H2]]; [|auto]. split; [auto|]. apply HF. apply in_app_iff. right. left. auto.
      + intros [[->|H1] L]; auto. }
  assert (Hfilt : forall f l, filter P (faces dim) = f :: l -> exists l1 l2, faces dim = l1 ++ f :: l2 /\ (forall y, In y l1 -> P y = false) /\ P f = true).
  { generalize (faces dim) as L. induction L as [|x L IH]; cbn [filter]; intros f l E; [discriminate|].
    destruct (P x) eqn:Ex.
    - injection E as -> _. exists [], L. split; [reflexivity|]. split; [intros y []|auto].
    - destruct (IH f l E) as (l1 & l2 & -> & H1 & H2). exists (x :: l1), l2. split; [reflexivity|]. split; [intros y [->|Hy]; auto|auto]. }
  assert (Hnil : filter P (faces dim) = [] <-> forall y, In y (faces dim) -> P y = false).
  { split; [|apply filter_none]. intros E y Hy. destruct (P y) eqn:Ey; auto. exfalso.
    assert (K : In y (filter P (faces dim))) by (apply filter_In; auto). rewrite E in K. destruct K. }
  split.
  - rewrite EP. split.
    + intros E a s Ha Hs Hv Hc. destruct (filter P (faces dim)) as [|f l] eqn:EF; [|discriminate].
      assert (K : P (a, s) = false) by (apply (proj1 Hnil eq_refl), in_faces; auto).
      assert (K' : P (a, s) = true) by (apply HP; auto). congruence.
    + intros H. replace (filter P (faces dim)) with (@nil (Z * Z)); [reflexivity|]. symmetry. apply Hnil. intros [a s] Hy.
      destruct (P (a, s)) eqn:E; auto. exfalso. apply HP in E. apply in_faces in Hy. apply (H a s); tauto.
  - intros a s. rewrite EP. split.
    + intros E. destruct (filter P (faces dim)) as [|[a1 s1] l] eqn:EF; [discriminate|]. cbn [fst snd] in E. injection E as -> ->.
      destruct (Hfilt _ _ eq_refl) as (l1 & l2 & E & H1 & H2).
      assert (Hin : In (a, s) (faces dim)) by (rewrite E; apply in_app_iff; right; left; auto). apply in_faces in Hin. apply HP in H2.
      split; [tauto|]. intros a' s' Ha' Hs' L Hv Hc.
      assert (K : In (a', s') l1) by (apply (HS _ _ _ E); cbn [fst snd]; split; [apply in_faces; auto|auto]).
      apply H1 in K. assert (K' : P (a', s') = true) by (apply HP; auto). congruence.
    + intros [(Ha & Hs & Hv & Hc) H]. destruct (filter P (faces dim)) as [|[a1 s1] l] eqn:EF.
      * assert (K : P (a, s) = false) by (apply (proj1 Hnil eq_refl), in_faces; auto). assert (K' : P (a, s) = true) by (apply HP; auto). congruence.
      * cbn [fst snd]. destruct (Hfilt _ _ eq_refl) as (l1 & l2 & E & H1 & H2).
        assert (Hin : In (a1, s1) (faces dim)) by (rewrite E; apply in_app_iff; right; left; auto). apply in_faces in Hin. apply HP in H2.
        destruct (Z.lt_total (2 * a1 + s1) (2 * a + s)) as [L|[L|L]].
        -- exfalso. apply (H a1 s1); tauto.
        -- f_equal; lia.
        -- exfalso. assert (K : In (a, s) l1) by (apply (HS _ _ _ E); cbn [fst snd]; split; [apply in_faces; auto|auto]).
           apply H1 in K. assert (K' : P (a, s) = true) by (apply HP; auto). congruence.
Qed.
Print Assumptions C103_one_form.

(** A collocation point has one quadrature point, of weight and Jacobian one, whatever the geometry. *)
Theorem C103_unit_weight : forall CB dim axes BT, col_tables CB dim axes BT -> forall e f,
  (forall axis side, f = Face axis side -> 0 <= axis < 3) ->
  tab_npts BT e f = 1 /\ col_JW dim BT e f 0 = 1%R.
Proof.
  intros CB dim axes BT HB e f Hf. split; [apply (col_npts CB dim axes BT HB); auto|].
  apply (col_JW_one CB dim axes BT HB); auto; apply (col_point_index CB dim axes BT HB); auto.
Qed.
Print Assumptions C103_unit_weight.

(** On an axis that is not periodic and whose knot vector is open, the form of a face sees at the node the same point and
    the same functions as the form of the interior would. *)
Theorem C103_face_tables : forall ndu0 a0 ders0 l0 r0 dim axes BT,
  let CB := fun k u p d U => basis_bspline k u p d U ndu0 a0 ders0 l0 r0 in
  col_tables CB dim axes BT -> forall e axis side, 0 <= axis < dim -> dim <= 3 -> side = 0 \/ side = 1 ->
  let A := axes axis in
  valid_knots (O:=Rord) (ax_p A) (ax_m A) (ax_U A) -> ends_nonempty (O:=Rord) (ax_p A) (ax_m A) (ax_U A) ->
  ax_nnp A = ax_m A - ax_p A -> ax_U A 1 = ax_U A (ax_p A) -> ax_U A (ax_m A - ax_p A) = ax_U A (ax_m A - 1) ->
  coord e axis = (if side =? 0 then 0 else ax_nnp A - 1) ->
  forall i, 0 <= i < 3 ->
  let D := dir_of BT e (Face axis side) i in let D' := dir_of BT e Interior i in
  d_nq D = d_nq D' /\ d_x D 0 = d_x D' 0 /\ d_w D 0 = d_w D' 0 /\ d_J D = d_J D' /\ d_na D = d_na D' /\ d_N D 0 = d_N D' 0.
Proof.
  intros ndu0 a0 ders0 l0 r0 dim axes BT CB HB e axis side Hax Hd Hs A HV He Hn HU1 HU2 Hc i Hi. cbn [dir_of].
  destruct (i =? axis) eqn:E; [|repeat split]. assert (i = axis) as -> by lia.
  pose proof (HB axis ltac:(lia)) as E'. unfold setup_colloc in E'. replace (axis <? dim) with true in E' by lia. fold A in E'. rewrite Hn in E'.
  destruct (C102_open ndu0 a0 ders0 l0 r0 _ _ _ _ HV He HU1 HU2 E') as (_ & P0 & P1 & _ & _ & _ & _ & V0 & V1).
  cbn [dir_bndr dir_args d_nq d_x d_w d_J d_na d_N]. rewrite Hn in Hc.
  assert (Q : bt_bnd_point (BT axis) 0 = ax_U A (ax_p A) /\ bt_bnd_point (BT axis) 1 = ax_U A (ax_m A - ax_p A) /\
    (forall x, bq_detJac (bt_q (BT axis)) x = 1%R) /\ (forall x, bq_weight (bt_q (BT axis)) x = [1%R])).
  { unfold init_collocation in E'. cbn [negb] in E'. injection E' as E'. rewrite <- E'. cbn [bt_bnd_point bt_q bq_detJac bq_weight].
    change (0 =? 0) with true. change (1 =? 0) with false. cbv iota. split; [reflexivity|]. split; [f_equal; lia|]. split; reflexivity. }
  destruct Q as (Q0 & Q1 & Q2 & Q3).
  rewrite (col_quad_size CB dim axes BT HB) by lia. split; [reflexivity|].
  unfold weights_at. unfold points_at. rewrite Q2, Q3.
  destruct Hs as [ -> | -> ].
  - change (coord e axis = 0) in Hc. rewrite Hc. rewrite P0, Q0, V0. repeat split.
  - change (coord e axis = ax_m A - ax_p A - 1) in Hc. rewrite Hc. rewrite P1, Q1, V1. repeat split.
Qed.
Print Assumptions C103_face_tables.

(** * C104 *)
Section Rows.
  Variables (g2 : Z -> Z -> Z -> Z) (g3 : Z -> Z -> Z -> Z -> Z) (maxint size dim : Z) (axes : Z -> axis Rord) (user : list Z)
            (LY : Z -> layout).
  Hypothesis Hset : col_setup_ok g2 g3 maxint size dim axes user LY.
  Variable CB : Z -> R -> Z -> Z -> (Z -> R) -> Z -> Z -> R.
  Variable BT : Z -> btable.
  Hypothesis HB : col_tables CB dim axes BT.
  Variable dof : Z.
  Hypothesis Hdof : 1 <= dof.
  Variables (e0 : Z -> elem) (sizes : Z -> Z -> Z).
  Variable visit : Z -> Z -> bool.
  Variable L0 : Z -> Z -> R.
  Variable order : list Z.
  Hypothesis Ho : Permutation order (zseq 0 size).
  Let N := node_count dim axes.
  Let G := fun r => grid_of dof (ly_node (LY r)).
  Let elems := fun r => rank_elements (e0 r) dim (ly_elem_start (LY r)) (ly_elem_width (LY r)) (sizes r).
  Let nen := col_nen BT.
  Let first := col_off BT.
  Let mapping := fun r e => closure (first e) nen (gr_gstart (G r)) (gr_gwidth (G r)).
  Let rowmap := fun r e => row_map (gr_gstart (G r)) (gr_gwidth (G r)) e.
  Let ix := fun (t : triple) (c : Z) => dof * ao size G (lin N t) + c.
  Let vec := fun F ins => col_compute_vector size G dof elems mapping rowmap F ins L0 order.
  Let mat := fun K ins => col_compute_matrix size G dof elems mapping rowmap K ins L0 order.

(** What any kernel (run with the data of its process r) leaves: every row of node t is the one the owner of t computed,
    from the nodal values at the functions listed at t. *)
Theorem C104_rows : forall ins nat_ins, Forall2 (holds size dof N G) ins nat_ins ->
  forall t, in_box zero3 N t -> exists r0, 0 <= r0 < size /\ In t (elems r0) /\
  forall c, 0 <= c < dof ->
  (forall Fe, vec Fe ins (ix t c) = Fe r0 t (map (elem_copy N nen first dof t) nat_ins) c) /\
  (forall Ke u d, in_box zero3 N u -> 0 <= d < dof ->
     mat Ke ins (ix t c) (ix u d) = colloc_matrix N nen first dof (Ke r0) nat_ins t c u d).
Proof.
  intros ins nat_ins Hins t Ht.
  destruct (cw_owner g2 g3 maxint size dim axes user LY Hset CB BT HB dof Hdof e0 sizes t Ht) as (r0 & Hr0 & Ht0).
  exists r0. split; [exact Hr0|]. split; [exact Ht0|]. intros c Hc.
  assert (W : grid_world size dof N G) by exact (cw_world g2 g3 maxint size dim axes user LY Hset CB BT HB dof Hdof e0 sizes).
  assert (Hg := cw_Hg g2 g3 maxint size dim axes user LY Hset CB BT HB dof Hdof e0 sizes). 
  assert (Hn : forall d, 0 <= d < 3 -> 0 <= nen d) by exact (cw_nen0 g2 g3 maxint size dim axes user LY Hset CB BT HB dof Hdof e0 sizes).
  assert (He : forall r, 0 <= r < size -> elems r = box (gr_lstart (G r)) (gr_lwidth (G r))) by exact (cw_elems g2 g3 maxint size dim axes user LY Hset CB BT HB dof Hdof e0 sizes).
  assert (Hcov := cw_cov g2 g3 maxint size dim axes user LY Hset CB BT HB dof Hdof e0 sizes).
  assert (Hown := cw_own g2 g3 maxint size dim axes user LY Hset CB BT HB dof Hdof e0 sizes).
  split.
  - intros Fe. exact (col_vector_row size dof N G W Hg nen first Hn elems He Hcov Hown ins nat_ins Hins L0 order Ho Fe r0 t c Hr0 Ht0 Hc).
  - intros Ke u d Hu Hd. exact (col_matrix_row size dof N G W Hg nen first Hn elems He Hcov Hown ins nat_ins Hins L0 order Ho Ke r0 t c u d Hr0 Ht0 Hc Hu Hd).
Qed.

(** IGAComputeVector and IGAComputeMatrix: the rows of node t are what the user's routine returned at its point, in one
    call, on any number of processes. *)
Let npts := tab_npts BT.
Let JW := col_JW dim BT.
Theorem C104_vector : forall (Vector : cb0) t c, in_box zero3 N t -> 0 <= c < dof ->
  vec (fun _ => c_vector dim dof N visit npts JW Vector) [] (ix t c) =
  Vector t (point_form dim N visit t) 0 (fun _ => 0%R) c.
Proof.
  intros Vector t c Ht Hc. destruct (C104_rows [] [] (Forall2_nil _) t Ht) as (r0 & _ & _ & H).
  rewrite (proj1 (H c Hc)). unfold c_vector.
  assert (HD : 1 <= dim <= 3) by exact (cw_dim g2 g3 maxint size dim axes user LY Hset CB BT HB dof Hdof e0 sizes).
  rewrite col_accumulate_spec; [reflexivity|lia| | |exact Hc].
  - exact (cw_npts g2 g3 maxint size dim axes user LY Hset CB BT HB dof Hdof e0 sizes visit t).
  - exact (cw_JW g2 g3 maxint size dim axes user LY Hset CB BT HB dof Hdof e0 sizes visit t).
Qed.
Theorem C104_matrix : forall (Matrix : cb0) t c u d, in_box zero3 N t -> 0 <= c < dof -> in_box zero3 N u -> 0 <= d < dof ->
  mat (fun _ => c_matrix dim dof nen N visit npts JW Matrix) [] (ix t c) (ix u d) =
  rsum (fun b => if triple_eqb (elem_node N first t b) u
                 then Matrix t (point_form dim N visit t) 0 (fun _ => 0%R) (c * (vol nen * dof) + (lin nen b * dof + d)) else 0%R)
       (box zero3 nen).
Proof.
  intros Matrix t c u d Ht Hc Hu Hd. destruct (C104_rows [] [] (Forall2_nil _) t Ht) as (r0 & _ & _ & H).
  rewrite (proj2 (H c Hc) _ u d Hu Hd). unfold colloc_matrix. apply rsum_ext. intros b Hb.
  destruct (triple_eqb _ u); [|reflexivity]. unfold c_matrix.
  assert (HD : 1 <= dim <= 3) by exact (cw_dim g2 g3 maxint size dim axes user LY Hset CB BT HB dof Hdof e0 sizes).
  assert (Hn : forall d, 0 <= d < 3 -> 0 <= nen d) by exact (cw_nen0 g2 g3 maxint size dim axes user LY Hset CB BT HB dof Hdof e0 sizes).
  rewrite col_accumulate_spec; [reflexivity|lia| | |].
  - exact (cw_npts g2 g3 maxint size dim axes user LY Hset CB BT HB dof Hdof e0 sizes visit t).
  - exact (cw_JW g2 g3 maxint size dim axes user LY Hset CB BT HB dof Hdof e0 sizes visit t).
  - apply In_box in Hb. pose proof (lin_in_range nen b Hb) as L. unfold col_nmat.
    assert (0 <= lin nen b * dof + d < vol nen * dof) by nia. nia.
Qed.
End Rows.
Print Assumptions C104_rows.
Print Assumptions C104_vector.
Print Assumptions C104_matrix.

(** Two processes share the five nodes of a quadratic axis over the knots 0,0,0,1,4,5,5,5. *)
Definition ex_cLY (r : Z) : layout := col_layout_of 1 ex_raxes [2] (rank_coords [2] r).
Definition no_btable : btable :=
  mk_btable (mk_basis_q 0 0 0 (fun _ => 0) (fun _ => 0%R) (fun _ => []) (fun _ => [])) (fun _ _ _ _ => 0%R) (fun _ => 0%R) (fun _ _ _ => 0%R).
Definition ex_cBT (CB : Z -> R -> Z -> Z -> (Z -> R) -> Z -> Z -> R) (i : Z) : btable :=
  match setup_colloc CB 1 i true (ax_p (ex_raxes i)) (ax_m (ex_raxes i)) (ax_U (ex_raxes i)) (ax_nnp (ex_raxes i)) with
  | (_, Some T) => T
  | _ => no_btable
  end.
Lemma ex_csetup_ok : col_setup_ok exact_g2 exact_g3 (2^31-1) 2 1 ex_raxes [-1] ex_cLY.
Proof.
  destruct ex_rsetup_ok as (H2 & H3 & H4 & H5 & _). split; [exact H2|]. split; [exact H3|]. split; [exact H4|]. split.
  - intros i Hi. destruct (H5 i Hi) as [A B]. split; [exact A|]. split; [exact B|]. cbn. unfold images. cbn. lia.
  - intros r Hr. unfold col_stage1. change (map (fun i => ax_nnp (ex_raxes i)) (zseq 0 1)) with [5].
    assert (E : r = 0 \/ r = 1) by lia. destruct E as [ -> | -> ].
    + assert (E : partition exact_g2 exact_g3 (2^31-1) 2 0 [5] [-1] = (Ok, [2], rank_coords [2] 0)) by (vm_compute; reflexivity). rewrite E. reflexivity.
    + assert (E : partition exact_g2 exact_g3 (2^31-1) 2 1 [5] [-1] = (Ok, [2], rank_coords [2] 1)) by (vm_compute; reflexivity). rewrite E. reflexivity.
Qed.
Lemma ex_ctables CB : col_tables CB 1 ex_raxes (ex_cBT CB).
Proof.
  intros i Hi. assert (E : i = 0 \/ i = 1 \/ i = 2) by lia. destruct E as [ -> | [ -> | -> ] ]; reflexivity.
Qed.
Example C103_example :
  (* a corner of a 2-d grid of 4 x 3 nodes with boundary forms on axis 1 only, and on all faces *)
  point_form 2 (fun d => if d =? 0 then 4 else 3) (fun a s => a =? 1) (3, 2, 0) = Face 1 1 /\
  point_form 2 (fun d => if d =? 0 then 4 else 3) (fun a s => true) (3, 2, 0) = Face 0 1 /\
  point_form 2 (fun d => if d =? 0 then 4 else 3) (fun a s => true) (1, 1, 0) = Interior.
Proof. repeat split. Qed.
Example C104_example : forall CB e0 sizes,
  rank_elements (e0 0) 1 (ly_elem_start (ex_cLY 0)) (ly_elem_width (ex_cLY 0)) (sizes 0) = [(0, 0, 0); (1, 0, 0); (2, 0, 0)] /\
  rank_elements (e0 1) 1 (ly_elem_start (ex_cLY 1)) (ly_elem_width (ex_cLY 1)) (sizes 1) = [(3, 0, 0); (4, 0, 0)] /\
  forall L0 t c, in_box zero3 (node_count 1 ex_raxes) t -> 0 <= c < 2 ->
  let G := fun r => grid_of 2 (ly_node (ex_cLY r)) in
  col_compute_vector 2 G 2 (fun r => rank_elements (e0 r) 1 (ly_elem_start (ex_cLY r)) (ly_elem_width (ex_cLY r)) (sizes r))
    (fun r e => closure (col_off (ex_cBT CB) e) (col_nen (ex_cBT CB)) (gr_gstart (G r)) (gr_gwidth (G r)))
    (fun r e => row_map (gr_gstart (G r)) (gr_gwidth (G r)) e)
    (fun _ => c_vector 1 2 (node_count 1 ex_raxes) (fun a s => true) (tab_npts (ex_cBT CB)) (col_JW 1 (ex_cBT CB))
       (fun t f q _ k => if k =? 0 then IZR (coord t 0) else match f with Interior => 0%R | Face _ s => IZR (s + 1) end)) [] L0 [1; 0]
    (2 * ao 2 G (lin (node_count 1 ex_raxes) t) + c) =
  (if c =? 0 then IZR (coord t 0) else if coord t 0 =? 0 then 1%R else if coord t 0 =? 4 then 2%R else 0%R).
Proof.
  intros CB e0 sizes.
  assert (E : forall r, 0 <= r < 2 -> rank_elements (e0 r) 1 (ly_elem_start (ex_cLY r)) (ly_elem_width (ex_cLY r)) (sizes r) =
    box (gr_lstart (grid_of 1 (ly_node (ex_cLY r)))) (gr_lwidth (grid_of 1 (ly_node (ex_cLY r))))).
  { intros r Hr. exact (cw_elems _ _ _ _ _ _ _ _ ex_csetup_ok CB _ (ex_ctables CB) 1 ltac:(lia) e0 sizes r Hr). }
  assert (B : forall r d, 0 <= r < 2 -> 0 <= d < 3 -> gr_lstart (grid_of 1 (ly_node (ex_cLY r))) d = ly_elem_start (ex_cLY r) d /\
    gr_lwidth (grid_of 1 (ly_node (ex_cLY r))) d = ly_elem_width (ex_cLY r) d).
  { intros r d Hr Hd. pose proof (col_facts _ _ _ _ _ _ _ _ ex_csetup_ok r d Hr Hd) as F. cbv zeta in F. cbn [grid_of gr_lstart gr_lwidth]. split; symmetry; apply F. }
  split; [|split].
  - rewrite E by lia. unfold box. destruct (B 0 0 ltac:(lia) ltac:(lia)) as [-> ->]. destruct (B 0 1 ltac:(lia) ltac:(lia)) as [-> ->]. destruct (B 0 2 ltac:(lia) ltac:(lia)) as [-> ->]. vm_compute. reflexivity.
  - rewrite E by lia. unfold box. destruct (B 1 0 ltac:(lia) ltac:(lia)) as [-> ->]. destruct (B 1 1 ltac:(lia) ltac:(lia)) as [-> ->]. destruct (B 1 2 ltac:(lia) ltac:(lia)) as [-> ->]. vm_compute. reflexivity.
  - intros L0 t c Ht Hc G.
    rewrite (C104_vector _ _ _ _ _ _ _ _ ex_csetup_ok CB _ (ex_ctables CB) 2 ltac:(lia) e0 sizes (fun _ _ => true) L0 [1; 0] ltac:(apply perm_swap) _ t c Ht Hc).
    destruct (c =? 0) eqn:Ec; [reflexivity|].
    unfold point_form, pieces. change (faces 1) with [(0, 0); (0, 1)]. cbn [filter fst snd andb]. change (node_count 1 ex_raxes 0) with 5.
    change (0 =? 0) with true. change (1 =? 0) with false. cbv iota. change (5 - 1) with 4.
    destruct (coord t 0 =? 0) eqn:E0; [reflexivity|]. destruct (coord t 0 =? 4) eqn:E4; reflexivity.
Qed.
