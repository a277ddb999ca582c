(** C99, C100, C101: tabulation on an element, and positive definite matrices. *)
From Coq Require Import ZArith List Bool Lia Reals Lra Permutation.
From Coq Require Import ZifyBool ZifyNat.
From Verif Require Import Prelude RealOrd AxisModel AxisSpec AxisInitModel AxisProofs PartModel PartSpec PartProofs SetupModel SetupProofs SetupProps GridModel GridSpec GridProofs GridSetup GridProps
  ElemModel ElemProofs AsmProofs ElemProps BasModel BCModel BCSpec BCProofs BCProofs2 BCProps DrvModel DrvSpec DrvProofs DrvProofs2 DrvProofs3 DrvProps RuleModel RuleSpec RuleProps MapModel MapSpec MapProofs
  TabModel TabSpec TabProofs TabProofs2 TabProofs3 TabProofs4 TabProofs5 TabProofs6 TabProofs7 PcSpec PcProofs.
From Verif Require Import ElemSpec Box.
Import ListNotations.
Open Scope Z_scope.

Lemma trim_after w n q : quad_trim w n <= q < Z.of_nat n -> (w q <= 0)%R.
Proof.
  induction n as [|n IH]; cbn [quad_trim]; intros H; [lia|]. destruct (Rle_dec (w (Z.of_nat n)) 0) as [L|L]; [|lia].
  destruct (Z.eq_dec q (Z.of_nat n)) as [ -> |D]; auto. apply IH. lia.
Qed.

Section Tabulation.
  Variable lit : Z -> R.
  Hypothesis Hlit : rounds lit.
  Variable maxreal : R.
  Variables dim order : Z.
  Hypothesis Hdim : 1 <= dim <= 3.
  Hypothesis Horder : 1 <= order.
  Variable axes : Z -> axis Rord.
  Hypothesis Hax : forall i, 0 <= i < dim -> axis_ready (axes i) /\ ends_nonempty (ax_p (axes i)) (ax_m (axes i)) (ax_U (axes i)).
  Variable bsp : Z -> bool.                       (* basis[i]->type == IGA_BASIS_BSPLINE *)
  Variable CB : Z -> Z -> R -> Z -> Z -> (Z -> R) -> Z -> Z -> R.
  Variable N0 : Z -> Z -> Z -> Z -> Z -> R.       (* what the new arrays of values hold *)
  Variables r r' : Z -> rule.
  Variable BT : Z -> btable.
  (* the third stage of IGASetUp *)
  Hypothesis HBT : forall i, 0 <= i < 3 ->
    setup_basis lit maxreal (CB i) dim i (bsp i) (ax_p (axes i)) (ax_m (axes i)) (ax_U (axes i)) (spans_of (axes i)) (N0 i) (r i) = (Ok, r' i, Some (BT i)).
  Hypothesis Hrule : forall i, 0 <= i < dim -> good_rule lit (r i).
  Let nel := fun d => if d <? dim then ax_nel (axes d) else 1.
  Let nen := fun d => if d <? dim then ax_p (axes d) + 1 else 1.
  Let span := fun (e : triple) i => span_at (axes i) (coord e i).

  Lemma tab_HT i : 0 <= i < dim -> table_ok (CB i) (ax_p (axes i)) (ax_m (axes i)) (ax_U (axes i)) (spans_of (axes i)) (BT i) /\
    (enough_points lit (ax_p (axes i)) (r i) -> points_ok (ax_p (axes i)) (ax_U (axes i)) (spans_of (axes i)) (BT i)).
  Proof.
    intros Hi. pose proof (HBT i ltac:(lia)) as E. unfold setup_basis in E. replace (i <? dim) with true in E by lia.
    destruct (Hax i Hi) as ((l & Hl & ((Hp & _) & _)) & _).
    assert (Hp0 : 0 <= ax_p (axes i)) by lia.
    exact (basis_facts lit Hlit maxreal (CB i) (bsp i) _ _ _ _ _ _ _ _ Hp0 (Hrule i Hi) E).
  Qed.
  Lemma tab_H1 i : dim <= i < 3 -> quad_size (BT i) 0 = 1.
  Proof.
    intros Hi. pose proof (HBT i ltac:(lia)) as E. unfold setup_basis in E. replace (i <? dim) with false in E by lia.
    exact (unit_facts lit Hlit maxreal (CB i) _ _ _ _ E).
  Qed.
  Let HT := fun i Hi => proj1 (tab_HT i Hi).

(** * C99 *)
(** The rule of an element e of the grid, or of a face of the domain that e touches: there are nq 0 * nq 1 * nq 2
    points, at least one; in the directions of the element the points with positive weight, each times half the length
    of the element; in the direction of the face the end of the domain; and sums over the points of the element are
    tensor products. *)
Theorem C99_quadrature : forall e f, in_box zero3 nel e -> touches dim nel e f ->
  exists (nq : Z -> Z) (x w : Z -> Z -> R),
  (forall i, 0 <= i < dim ->
     match f with
     | Face axis side => i = axis -> nq i = 1 /\ x i 0 = (if side =? 0 then ax_U (axes i) (ax_p (axes i)) else ax_U (axes i) (ax_m (axes i) - ax_p (axes i))) /\ w i 0 = 1%R
     | Interior => True
     end) /\
  (forall i, 0 <= i < dim -> match f with Face axis _ => i <> axis | Interior => True end ->
     let Q := bt_q (BT i) in let s := coord e i in
     1 <= nq i <= bq_nqp Q /\
     (forall q, 0 <= q < bq_nqp Q -> (q < nq i <-> (0 < at0 (bq_weight Q s) q)%R)) /\
     forall q, 0 <= q < nq i -> x i q = at0 (bq_point Q s) q /\
       w i q = ((ax_U (axes i) (span e i + 1)%Z - ax_U (axes i) (span e i)) / 2 * at0 (bq_weight Q s) q)%R) /\
  (forall i, dim <= i < 3 -> nq i = 1 /\ w i 0 = 1%R) /\
  tab_count BT e f = Some (nq 0 * nq 1 * nq 2) /\
  forall F : (Z -> R) -> R, (forall u v, (forall i, 0 <= i < dim -> u i = v i) -> F u = F v) ->
    rsum (fun q => F (tab_point dim BT e f q) * (tab_detJ dim BT e f q * tab_weight dim BT e f q))%R (zseq 0 (nq 0 * nq 1 * nq 2)) = tensor_sum nq x w F.
Proof.
  intros e f He Hf. pose proof (fld_ok dim Hdim axes Hax CB BT HT tab_H1 e f He Hf) as OK.
  pose proof (fld_p0 dim axes Hax CB BT HT tab_H1) as Hp0. pose proof (fld_ends dim axes Hax) as Hen.
  set (M := nq BT e f).
  exists M, (fun i => d_x (dir_of BT e f i)), (fun i q => if i <? dim then (d_J (dir_of BT e f i) * d_w (dir_of BT e f i) q)%R else 1%R).
  assert (HM : forall i, 0 <= i < 3 -> 1 <= M i) by (intros i Hi; exact (nq_pos dim Hdim _ _ _ _ CB BT Hp0 HT tab_H1 Hen e f i OK Hi)).
  split; [|split; [|split; [|split]]].
  - intros i Hi. destruct f as [axis side|]; auto. intros ->. unfold M, nq, dir_of. rewrite Z.eqb_refl. cbn [dir_bndr d_nq d_x d_w d_J]. replace (axis <? dim) with true by lia.
    destruct (HT axis Hi) as (_ & _ & T3 & _). split; auto. split; [rewrite T3; reflexivity|ring].
  - intros i Hi Hn Q s.
    assert (ED : dir_of BT e f i = dir_args (BT i) s).
    { destruct f as [axis side|]; cbn [dir_of]; auto. replace (i =? axis) with false by lia. auto. }
    unfold M, nq. rewrite ED. cbn [dir_args d_nq d_x d_w d_J]. replace (i <? dim) with true by lia.
    pose proof (coord_in nel e i He ltac:(lia)) as C. unfold nel in C. replace (i <? dim) with true in C by lia.
    destruct (HT i Hi) as (_ & T2 & _). destruct (T2 s) as (Q1 & QJ & QW); [rewrite (fld_len dim axes Hax) by auto; exact C|].
    split; [|split].
    + split; auto. unfold quad_size, Q. assert (K : forall w n, quad_trim w n <= Z.of_nat n) by (intros w0; induction n as [|n IH]; cbn [quad_trim]; [lia|destruct (Rle_dec (w0 (Z.of_nat n)) 0); lia]).
      destruct (Z_le_dec 0 (bq_nqp (bt_q (BT i)))) as [L|L].
      * specialize (K (weights_at (BT i) s) (Z.to_nat (bq_nqp (bt_q (BT i))))). lia.
      * exfalso. unfold quad_size in Q1. replace (Z.to_nat (bq_nqp (bt_q (BT i)))) with O in Q1 by lia. cbn [quad_trim] in Q1. lia.
    + intros q Hq. split.
      * intros L. exact (proj1 (QW q ltac:(lia))).
      * intros L. destruct (Z_lt_dec q (quad_size (BT i) s)) as [|D]; auto. exfalso.
        assert (K : (weights_at (BT i) s q <= 0)%R) by (apply (trim_after _ (Z.to_nat (bq_nqp Q))); unfold quad_size in D; fold Q in D; lia).
        unfold weights_at in K. unfold at0 in L. fold Q in K. lra.
    + intros q Hq. split; [reflexivity|]. rewrite QJ. rewrite (fld_nth dim axes Hax i s Hi). reflexivity.
  - intros i Hi. split; [exact (nq_unit dim Hdim _ _ _ _ CB BT Hp0 HT tab_H1 Hen e f i OK Hi)|]. replace (i <? dim) with false by lia. auto.
  - exact (count_vol dim Hdim _ _ _ _ CB BT Hp0 HT tab_H1 Hen e f OK).
  - intros F HF. change (M 0 * M 1 * M 2) with (vol M). rewrite (TabProofs3.rsum_lin M _ HM).
    unfold tensor_sum. rewrite TabProofs3.rsum_box. apply rsum_ext. intros k Hk. apply in_zseq in Hk. apply rsum_ext. intros j Hj. apply in_zseq in Hj. apply rsum_ext. intros i Hi. apply in_zseq in Hi.
    set (t := (i, j, k)). assert (Ht : in_box zero3 M t) by (unfold t, in_box, zero3; lia).
    assert (IX : forall d, 0 <= d < dim -> point_index dim BT e f (lin M t) d = coord t d) by (intros d Hd; exact (index_lin dim Hdim _ _ _ _ CB BT Hp0 HT tab_H1 Hen e f t d OK Ht Hd)).
    f_equal.
    + apply HF. intros d Hd. unfold tab_point. rewrite IX by auto. assert (Cd : d = 0 \/ d = 1 \/ d = 2) by lia. destruct Cd as [ -> | [ -> | -> ] ]; reflexivity.
    + assert (Cd : dim = 1 \/ dim = 2 \/ dim = 3) by lia. unfold tab_detJ, tab_weight. rewrite (IX 0) by lia. change (coord t 0) with i.
      destruct Cd as [E|[E|E]].
      * replace (dim =? 1) with true by lia. replace (0 <? dim) with true by lia. replace (1 <? dim) with false by lia. replace (2 <? dim) with false by lia. ring.
      * replace (dim =? 1) with false by lia. replace (dim =? 2) with true by lia. rewrite (IX 1) by lia. change (coord t 1) with j.
        replace (0 <? dim) with true by lia. replace (1 <? dim) with true by lia. replace (2 <? dim) with false by lia. ring.
      * replace (dim =? 1) with false by lia. replace (dim =? 2) with false by lia. rewrite (IX 1), (IX 2) by lia. change (coord t 1) with j. change (coord t 2) with k.
        replace (0 <? dim) with true by lia. replace (1 <? dim) with true by lia. replace (2 <? dim) with true by lia. ring.
Qed.
(** At every point, the rows handed to the tensor product are the functions of the span of the element and their
    derivatives at the coordinate of the point; weights and parametric Jacobians are positive, and so is JW in the interior when the
    Jacobian of the geometry is. *)
Theorem C99_functions : forall sqrt rationalW geometryX oldN oldX oldS oldE e f q,
  in_box zero3 nel e -> touches dim nel e f -> 0 <= q < tab_npts BT e f ->
  (forall i o a, 0 <= i < dim -> tab_rows dim BT e f q (i+1) o (a+1) =
     CB i (span e i) (tab_point dim BT e f q i) (ax_p (axes i)) (Z.min (ax_p (axes i)) 4) (ax_U (axes i)) o a) /\
  (0 < tab_weight dim BT e f q)%R /\ (0 < tab_detJ dim BT e f q)%R /\
  (f = Interior -> (geometryX e <> None -> (0 < e_det (tab_inv dim order BT rationalW geometryX oldN oldX oldS oldE e f q))%R) ->
   (0 < tab_JW dim order BT sqrt rationalW geometryX oldN oldX oldS oldE e f q)%R).
Proof.
  intros sqrt rationalW geometryX oldN oldX oldS oldE e f q He Hf Hq. pose proof (fld_ok dim Hdim axes Hax CB BT HT tab_H1 e f He Hf) as OK.
  pose proof (fld_p0 dim axes Hax CB BT HT tab_H1) as Hp0. pose proof (fld_ends dim axes Hax) as Hen.
  split; [|split; [|split]].
  - intros i o a Hi. unfold tab_rows. replace (i + 1 - 1) with i by lia. replace (a + 1 - 1) with a by lia.
    pose proof (dval_CB dim Hdim _ _ _ _ CB BT Hp0 HT tab_H1 Hen e f q i o a OK Hq Hi) as E. unfold span_of in E. rewrite (fld_nth dim axes Hax i (coord e i) Hi) in E. exact E.
  - exact (weight_pos dim Hdim axes Hax CB BT HT tab_H1 e f q He Hf Hq).
  - exact (detJ_pos dim Hdim axes Hax CB BT HT tab_H1 e f q He).
  - intros -> HX. apply (JW_interior dim Hdim axes Hax CB BT HT tab_H1); auto.
Qed.

(** * C100, C101 *)
  Variables (g2 : Z -> Z -> Z -> Z) (g3 : Z -> Z -> Z -> Z -> Z) (maxint size : Z) (user : list Z) (LY : Z -> layout) (dof : Z).
  Variable e0 : Z -> elem.
  Variable sizes : Z -> Z -> Z.
  Hypothesis Hset : setup_ok g2 g3 maxint size dim axes user LY.
  Hypothesis Hdof : 1 <= dof.
  Variable value load : Z -> Z -> list (Z * R).
  Variable area : triple -> Z -> Z -> R.
  Variable visit : Z -> Z -> bool.
  Hypothesis Hvalue : forall d s, NoDup (map fst (value d s)) /\ forall k, In k (map fst (value d s)) -> 0 <= k.
  Hypothesis Hload : forall d s, NoDup (map fst (load d s)) /\ forall k, In k (map fst (load d s)) -> 0 <= k.
  Variable TV : option (Z -> R).
  Variable L0 : Z -> Z -> R.
  Variable arrival : list Z.                     (* arrival order of the off-process contributions *)
  Hypothesis Harrival : Permutation arrival (zseq 0 size).
  (* the B-spline (or Bernstein) basis, on whatever its work arrays hold, and more than p points per direction *)
  Hypothesis HCB : forall i k v, 0 <= i < dim -> exists ndu0 a0 ders0 l0 r0, forall o a, 0 <= a <= ax_p (axes i) ->
    CB i k v (ax_p (axes i)) (Z.min (ax_p (axes i)) 4) (ax_U (axes i)) o a =
    basis_bspline k v (ax_p (axes i)) (Z.min (ax_p (axes i)) 4) (ax_U (axes i)) ndu0 a0 ders0 l0 r0 o a.
  Hypothesis Hpoints : forall i, 0 <= i < dim -> enough_points lit (ax_p (axes i)) (r i).
  (* geometry: weights of rational functions and the Jacobian at the points are positive *)
  Variables (sqrt : R -> R) (rationalW : triple -> option (Z -> R)) (geometryX : triple -> option (Z -> Z -> R)).
  Variables (oldN oldX oldS : triple -> form_visit -> Z -> nders) (oldE : triple -> form_visit -> Z -> inv_map).
  Let shape := fun e q => tab_shape dim order BT rationalW geometryX oldN oldX oldS oldE e Interior q.
  Let inv := fun e q => tab_inv dim order BT rationalW geometryX oldN oldX oldS oldE e Interior q.
  Hypothesis Hsqrt : forall x, (0 <= sqrt x)%R.
  Hypothesis HW : forall e W, in_box zero3 nel e -> rationalW e = Some W -> forall a, 1 <= a <= vol nen -> (0 < W a)%R.
  Hypothesis HX : forall e q, in_box zero3 nel e -> geometryX e <> None -> 0 <= q < tab_npts BT e Interior -> (0 < e_det (inv e q))%R.
  (* the number of points and JW are the tabulated ones on the elements of the grid and the faces they touch *)
  Variable npts : triple -> form_visit -> Z.
  Variable JW : triple -> form_visit -> Z -> R.
  Hypothesis Hnpts : forall e f, 1 <= npts e f.
  Hypothesis Htab : forall e f, in_box zero3 nel e -> touches dim nel e f ->
    npts e f = tab_npts BT e f /\ forall q, JW e f q = tab_JW dim order BT sqrt rationalW geometryX oldN oldX oldS oldE e f q.

  Let G := fun r => grid_of dof (ly_node (LY r)).
  Let N := fun d => if d <? dim then ax_nnp (axes d) else 1.
  Let first := fun e d => if d <? dim then span_at (axes d) (coord e d) - ax_p (axes d) else 0.
  Let per := fun d => ax_periodic (axes d).
  Let elems := fun r => rank_elements (e0 r) dim (ly_elem_start (LY r)) (ly_elem_width (LY r)) (sizes r).
  Let mapping := fun r e => closure (elem_off dim axes e) (basis_nen dim axes) (gr_gstart (G r)) (gr_gwidth (G r)).
  Let ix := fun (t : triple) (c : Z) => dof * ao size G (lin N t) + c.
  Let field := fun (V : Z -> R) (t : triple) (c : Z) => V (ix t c).
  Let T : option nodal := option_map field TV.
  Let presc := node_prescribed dim per N value T.
  Let n := vol nen * dof.
  Let zeros := fun _ : Z => 0%R.
  Let heldU := fun e U => earr dof N nen first e (held presc (field U)).
  Let mat := fun K ins => compute_matrix size G dof elems mapping K (opt_list TV ++ ins) L0 arrival.
  (* the boundary integrals, if any, are positive semidefinite *)
  Let faces_psd (g : triple -> form_visit -> Z -> Z -> R) := forall e axis side q, in_box zero3 nel e -> In (Face axis side) (pieces dim nel visit e) ->
    0 <= q < npts e (Face axis side) -> psd n (rows n (g e (Face axis side) q)).
  Let points (P : triple -> Z -> Prop) := forall e q, in_box zero3 nel e -> 0 <= q < npts e Interior -> P e q.

  Lemma gp_world : grid_world size dof N G.
  Proof. exact (setup_world _ _ _ _ _ _ _ _ Hset dof Hdof). Qed.
  Lemma gp_N d : 0 <= d < 3 -> 1 <= N d.
  Proof. intros Hd. pose proof (w_N _ _ _ _ gp_world d Hd). lia. Qed.
  Lemma gp_HP i : 0 <= i < dim -> points_ok (ax_p (axes i)) (ax_U (axes i)) (spans_of (axes i)) (BT i).
  Proof. intros Hi. exact (proj2 (tab_HT i Hi) (Hpoints i Hi)). Qed.

  Lemma gp_values g A P :
    faces_psd g -> points (fun e q => definite_values dof nen (n0 (shape e q)) (g e Interior q)) ->
    (forall t c u d, in_box zero3 N t -> 0 <= c < dof -> in_box zero3 N u -> 0 <= d < dof ->
      A (ix t c) (ix u d) = jacobian dim dof N nen nel first visit npts JW P g t c u d) -> spd (dof * vol N) A.
  Proof.
    intros HF HD HA. exact (gal_values dim order dof Hdim Hdof axes Hax CB BT HT tab_H1 HCB gp_HP sqrt rationalW geometryX oldN oldX oldS oldE Hsqrt HW HX visit npts JW Htab P g HF gp_N size G A gp_world HD HA).
  Qed.
  Lemma gp_grads g A P :
    faces_psd g -> (forall e, in_box zero3 nel e -> rationalW e = None) -> points (fun e q => definite_grads dim dof nen (n1 (shape e q)) (g e Interior q)) ->
    (forall c, 0 <= c < dof -> exists t, in_box zero3 N t /\ P t c <> None) ->
    (forall t c u d, in_box zero3 N t -> 0 <= c < dof -> in_box zero3 N u -> 0 <= d < dof ->
      A (ix t c) (ix u d) = jacobian dim dof N nen nel first visit npts JW P g t c u d) -> spd (dof * vol N) A.
  Proof.
    intros HF HR HD HP HA. exact (gal_grads dim order dof Hdim Horder Hdof axes Hax CB BT HT tab_H1 HCB gp_HP sqrt rationalW geometryX oldN oldX oldS oldE Hsqrt HW HX visit npts JW Htab P g HF gp_N size G A gp_world HR HD HP HA).
  Qed.
  Lemma gp_fixed : (forall c, 0 <= c < dof -> exists d s, 0 <= d < dim /\ (s = 0 \/ s = 1) /\ per d = false /\ In c (map fst (value d s))) ->
    forall c, 0 <= c < dof -> exists t, in_box zero3 N t /\ presc t c <> None.
  Proof.
    intros H c Hc. destruct (H c Hc) as (d & s & Hd & Hs & Hp & Hv). pose proof (gp_N 0 ltac:(lia)). pose proof (gp_N 1 ltac:(lia)). pose proof (gp_N 2 ltac:(lia)).
    set (z := if s =? 0 then 0 else N d - 1). assert (Hz : 0 <= z < N d). { pose proof (gp_N d ltac:(lia)). unfold z. destruct (s =? 0); lia. }
    exists (if d =? 0 then z else 0, if d =? 1 then z else 0, if d =? 2 then z else 0). split.
    - unfold in_box, zero3. destruct (d =? 0) eqn:E0; destruct (d =? 1) eqn:E1; destruct (d =? 2) eqn:E2;
        repeat match goal with K : (d =? _) = true |- _ => apply Z.eqb_eq in K end; try lia; subst d; lia.
    - apply (prescribed_on_face dim per N value T _ c d s); auto.
      assert (Cd : d = 0 \/ d = 1 \/ d = 2) by lia. destruct Cd as [E|[E|E]]; unfold coord; rewrite E; zc; unfold z; rewrite E; reflexivity.
  Qed.

(** C100: the matrix that IGAComputeMatrix assembles from a point matrix that is positive semidefinite on the faces and,
    in the interior, zero only on fields that are zero at the point, is symmetric positive definite. *)
Theorem C100_matrix : forall Matrix ins,
  let g := fun e f q => Matrix e f q zeros in
  faces_psd g -> points (fun e q => definite_values dof nen (n0 (shape e q)) (g e Interior q)) ->
  spd (dof * vol N) (mat (k_matrix dim dof nen nel visit npts JW Matrix) ins).
Proof.
  intros Matrix ins g HF HD. apply (gp_values g _ (fun _ _ => None) HF HD). intros t c u d Ht Hc Hu Hd.
  exact (C81_matrix Rord g2 g3 maxint size dim axes user LY dof e0 sizes Hset Hdof value load area visit npts JW Hvalue Hload Hnpts TV L0 arrival Harrival Matrix ins t c u d Ht Hc Hu Hd).
Qed.
(** The same for the matrix of IGAComputeSystem and for IGAComputeJacobian at any state, with Dirichlet conditions on any
    faces, or none. *)
Theorem C100_system : forall SysK SysF,
  let g := fun e f q => SysK e f q zeros in
  faces_psd g -> points (fun e q => definite_values dof nen (n0 (shape e q)) (g e Interior q)) ->
  spd (dof * vol N) (mat (fun e ins => fst (k_system dim dof nen nel per visit value load area (is_some TV) npts JW SysK SysF e ins)) []).
Proof.
  intros SysK SysF g HF HD. apply (gp_values g _ presc HF HD). intros t c u d Ht Hc Hu Hd.
  exact (C81_system_matrix Rord g2 g3 maxint size dim axes user LY dof e0 sizes Hset Hdof value load area visit npts JW Hvalue Hload Hnpts TV L0 arrival Harrival SysK SysF t c u d Ht Hc Hu Hd).
Qed.
Theorem C100_jacobian : forall cb U,
  let g := fun e f q => cb e f q (heldU e U) zeros in
  faces_psd g -> points (fun e q => definite_values dof nen (n0 (shape e q)) (g e Interior q)) ->
  spd (dof * vol N) (mat (k_jacobian dim dof nen nel per visit value load area (is_some TV) npts JW cb) [U]).
Proof.
  intros cb U g HF HD. apply (gp_values g _ presc HF HD). intros t c u d Ht Hc Hu Hd.
  exact (C81_jacobian Rord g2 g3 maxint size dim axes user LY dof e0 sizes Hset Hdof value load area visit npts JW Hvalue Hload Hnpts TV L0 arrival Harrival cb U t c u d Ht Hc Hu Hd).
Qed.

(** C101: without rational weights and with a Dirichlet condition for every component on some face of a direction that
    is not periodic, it is enough that the point matrix is zero only on fields whose gradient is zero at the point. *)
Theorem C101_system : forall SysK SysF,
  let g := fun e f q => SysK e f q zeros in
  faces_psd g -> (forall e, in_box zero3 nel e -> rationalW e = None) ->
  (forall c, 0 <= c < dof -> exists d s, 0 <= d < dim /\ (s = 0 \/ s = 1) /\ ax_periodic (axes d) = false /\ In c (map fst (value d s))) ->
  points (fun e q => definite_grads dim dof nen (n1 (shape e q)) (g e Interior q)) ->
  spd (dof * vol N) (mat (fun e ins => fst (k_system dim dof nen nel per visit value load area (is_some TV) npts JW SysK SysF e ins)) []).
Proof.
  intros SysK SysF g HF HR HV HD. apply (gp_grads g _ presc HF HR HD (gp_fixed HV)). intros t c u d Ht Hc Hu Hd.
  exact (C81_system_matrix Rord g2 g3 maxint size dim axes user LY dof e0 sizes Hset Hdof value load area visit npts JW Hvalue Hload Hnpts TV L0 arrival Harrival SysK SysF t c u d Ht Hc Hu Hd).
Qed.
Theorem C101_jacobian : forall cb U,
  let g := fun e f q => cb e f q (heldU e U) zeros in
  faces_psd g -> (forall e, in_box zero3 nel e -> rationalW e = None) ->
  (forall c, 0 <= c < dof -> exists d s, 0 <= d < dim /\ (s = 0 \/ s = 1) /\ ax_periodic (axes d) = false /\ In c (map fst (value d s))) ->
  points (fun e q => definite_grads dim dof nen (n1 (shape e q)) (g e Interior q)) ->
  spd (dof * vol N) (mat (k_jacobian dim dof nen nel per visit value load area (is_some TV) npts JW cb) [U]).
Proof.
  intros cb U g HF HR HV HD. apply (gp_grads g _ presc HF HR HD (gp_fixed HV)). intros t c u d Ht Hc Hu Hd.
  exact (C81_jacobian Rord g2 g3 maxint size dim axes user LY dof e0 sizes Hset Hdof value load area visit npts JW Hvalue Hload Hnpts TV L0 arrival Harrival cb U t c u d Ht Hc Hu Hd).
Qed.
End Tabulation.
Print Assumptions C99_quadrature.
Print Assumptions C99_functions.
Print Assumptions C100_matrix.
Print Assumptions C100_system.
Print Assumptions C100_jacobian.
Print Assumptions C101_system.
Print Assumptions C101_jacobian.

(** C101: what the assembled matrix annihilates. *)
Section Null.
  Variables (g2 : Z -> Z -> Z -> Z) (g3 : Z -> Z -> Z -> Z -> Z) (maxint size dim : Z) (axes : Z -> axis Rord) (user : list Z) (LY : Z -> layout) (dof : Z).
  Variable e0 : Z -> elem.
  Variable sizes : Z -> Z -> Z.
  Hypothesis Hset : setup_ok g2 g3 maxint size dim axes user LY.
  Hypothesis Hdof : 1 <= dof.
  Variable visit : Z -> Z -> bool.
  Variable npts : triple -> form_visit -> Z.
  Variable JW : triple -> form_visit -> Z -> R.
  Hypothesis Hnpts : forall e f, 1 <= npts e f.
  Variable TV : option (Z -> R).
  Variable L0 : Z -> Z -> R.
  Variable arrival : list Z.
  Hypothesis Harrival : Permutation arrival (zseq 0 size).
  Let G := fun r => grid_of dof (ly_node (LY r)).
  Let N := fun d => if d <? dim then ax_nnp (axes d) else 1.
  Let nel := fun d => if d <? dim then ax_nel (axes d) else 1.
  Let nen := fun d => if d <? dim then ax_p (axes d) + 1 else 1.
  Let first := fun e d => if d <? dim then span_at (axes d) (coord e d) - ax_p (axes d) else 0.
  Let elems := fun r => rank_elements (e0 r) dim (ly_elem_start (LY r)) (ly_elem_width (LY r)) (sizes r).
  Let mapping := fun r e => closure (elem_off dim axes e) (basis_nen dim axes) (gr_gstart (G r)) (gr_gwidth (G r)).
  Let ix := fun (t : triple) (c : Z) => dof * ao size G (lin N t) + c.
  Let n := vol nen * dof.
  Let zeros := fun _ : Z => 0%R.
  Let mat := fun K ins => compute_matrix size G dof elems mapping K (opt_list TV ++ ins) L0 arrival.
  Lemma nl_world : grid_world size dof N G.
  Proof. exact (setup_world _ _ _ _ _ _ _ _ Hset dof Hdof). Qed.
  Lemma nl_N d : 0 <= d < 3 -> 1 <= N d.
  Proof. intros Hd. pose proof (w_N _ _ _ _ nl_world d Hd). lia. Qed.
  Lemma nl_axes d : 0 <= d < dim -> axis_ready (axes d).
  Proof. intros Hd. destruct Hset as (_ & _ & _ & H & _). exact (proj1 (H d Hd)). Qed.
  Lemma nl_none (d s : Z) : NoDup (map fst (@nil (Z * R))) /\ forall k, In k (map fst (@nil (Z * R))) -> 0 <= k.
  Proof. split; [constructor|intros k []]. Qed.

(** What the point matrices of all pieces annihilate, the assembled matrix annihilates: without Dirichlet conditions,
    point matrices with zero row sums (those built from gradients) have the constants in the kernel of the matrix. *)
Theorem C101_null_vectors : forall Matrix ins (x : nodal),
  (forall e f q i, in_box zero3 nel e -> In f (pieces dim nel visit e) -> 0 <= q < npts e f -> 0 <= i < n ->
     rsum (fun j => rows n (Matrix e f q zeros) i j * earr dof N nen first e x j)%R (zseq 0 n) = 0%R) ->
  forall t c, in_box zero3 N t -> 0 <= c < dof ->
  node_row N dof (fun t c u d => mat (k_matrix dim dof nen nel visit npts JW Matrix) ins (ix t c) (ix u d)) x t c = 0%R.
Proof.
  intros Matrix ins x H t c Ht Hc.
  assert (Hnen : forall d, 0 <= d < 3 -> 1 <= nen d).
  { intros d Hd. unfold nen. destruct (d <? dim) eqn:L; [|lia]. destruct (nl_axes d ltac:(lia)) as (l & Hl & ((Hp & _) & _)). cbv beta. clear - Hp. lia. }
  rewrite (node_row_ext dof N nen nel first visit npts JW (fun _ _ => None) (fun _ _ _ => 0%R) Hnen nl_N _ (plain_matrix dim dof N nen nel first visit npts JW (fun e f q => Matrix e f q zeros)) x x).
  2:{ intros u d Hu Hd. f_equal.
      exact (C81_matrix Rord g2 g3 maxint size dim axes user LY dof e0 sizes Hset Hdof (fun _ _ => []) (fun _ _ => []) (fun _ _ _ => 0%R) visit npts JW nl_none nl_none Hnpts TV L0 arrival Harrival Matrix ins t c u d Ht Hc Hu Hd). }
  rewrite (plain_row dim dof N nen nel first visit npts JW (fun _ _ => None) (fun _ _ _ => 0%R) Hdof Hnen nl_N) by auto.
  unfold scatter. apply rsum_zero. intros e He. apply rsum_zero. intros a Ha. destruct (triple_eqb _ t); [|reflexivity].
  apply In_box in He, Ha. fold n.
  assert (La : 0 <= lin nen a * dof + c < n) by exact (index_lt dof N nen nel first visit (fun _ _ => None) Hdof Hnen nl_N a c Ha Hc).
  set (i := lin nen a * dof + c) in *.
  transitivity (integral dim nel visit npts JW e (fun f q => rsum (fun j => rows n (Matrix e f q zeros) i j * earr dof N nen first e x j)%R (zseq 0 n))).
  - unfold integral. rewrite (rsum_ext _ _ (fun j => rsum (fun f => rsum (fun q => rows n (Matrix e f q zeros) i j * earr dof N nen first e x j * JW e f q)%R (zseq 0 (npts e f))) (pieces dim nel visit e))).
    + rewrite rsum_comm. apply rsum_ext. intros f _. rewrite rsum_comm. apply rsum_ext. intros q _. rewrite rsum_mult_r. reflexivity.
    + intros j _. rewrite rsum_mult_r. apply rsum_ext. intros f _. rewrite rsum_mult_r. apply rsum_ext. intros q _. unfold rows. ring.
  - unfold integral. apply rsum_zero. intros f Hf. apply rsum_zero. intros q Hq. apply in_zseq in Hq. rewrite H by (auto; lia). ring.
Qed.
End Null.
Print Assumptions C101_null_vectors.

(** The integrands of diffusion and reaction meet the conditions of C100 (diffusion tensor positive semidefinite,
    reaction positive) and C101 (diffusion tensor positive definite, reaction not negative). *)
Theorem C100_C101_diffusion_reaction : forall dim dof nen phi dphi kap sig K, 1 <= dim -> 1 <= dof -> (forall d, 0 <= d < 3 -> 1 <= nen d) ->
  diffusion_reaction dim dof nen phi dphi kap sig K ->
  (psd dim kap -> (0 < sig)%R -> definite_values dof nen phi K) /\
  (spd dim kap -> (0 <= sig)%R -> definite_grads dim dof nen dphi K) /\
  (psd dim kap -> (0 <= sig)%R -> psd (vol nen * dof) (rows (vol nen * dof) K)).
Proof.
  intros dim dof nen phi dphi kap sig K Hd Hf Hn HK. split; [|split].
  - exact (dr_values dim dof nen phi dphi kap sig K Hf Hn HK).
  - exact (dr_grads dim dof nen phi dphi kap sig K Hf Hn HK).
  - exact (dr_psd dim dof nen phi dphi kap sig K Hf Hn HK).
Qed.
Print Assumptions C100_C101_diffusion_reaction.
