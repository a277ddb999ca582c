(** Theorems about boundary loads (C124, C125). *)
From Coq Require Import ZArith List Bool Lia Reals Lra Permutation.
From Coq Require Import ZifyBool ZifyNat.
From Coquelicot Require Import Coquelicot.
From Verif Require Import Prelude RealOrd AxisModel AxisSpec AxisInitModel PartModel PartSpec PartProofs SetupModel SetupProofs SetupProps
  Box GridModel GridSpec GridProofs GridProofs2 GridSetup GridProps ElemModel ElemSpec ElemProofs AsmProofs ElemProps RuleModel RuleSpec RuleProps
  BCModel BCSpec BCProofs BCProofs2 BCProps BasSpec DrvModel DrvSpec DrvProofs DrvProofs2 DrvProofs3 DrvProps TabProofs3 LdModel LdSpec LdProofs LdProofs2 LdProofs3.
From Verif Require Import Box.
Import ListNotations.
Open Scope Z_scope.

(** Tables IGABasisInitQuadrature built for every direction, whatever the rule. *)
Definition basis_tables (dim : Z) (axes : Z -> axis Rord) (BD : Z -> basis_q) : Prop :=
  forall i, 0 <= i < dim -> exists lit maxreal bsp l r r', ax_span (axes i) = Some l /\
    init_quadrature lit maxreal bsp (ax_p (axes i)) (ax_m (axes i)) (ax_U (axes i)) l r = (Ok, r', Some (BD i)).
Lemma basis_tables_fields dim axes BD : basis_tables dim axes BD -> forall i, 0 <= i < dim -> bq_nen (BD i) = ax_p (axes i) + 1 /\
    forall e, bq_detJac (BD i) e = elem_detJac (ax_U (axes i)) (span_at (axes i) e).
Proof.
  intros H i Hi. destruct (H i Hi) as (lit & mr & b & l & r & r' & Hl & E). unfold span_at. rewrite Hl. clear H. revert E. unfold init_quadrature.
  destruct (if ru_nqp r <? 1 then _ else _) as [s1 r1]. destruct s1; try discriminate. destruct (negb b && _); [discriminate|].
  destruct (negb (rtype_eqb _ _)).
  - intros [= _ <-]. split; [reflexivity|]. intros e. reflexivity.
  - destruct (if (2 <? _) && _ then _ else _) as [s2 r2]. destruct s2; try discriminate. intros [= _ <-]. split; [reflexivity|]. intros e. reflexivity.
Qed.

Section Loads.
  Variables (g2 : Z -> Z -> Z -> Z) (g3 : Z -> Z -> Z -> Z -> Z) (maxint size dim : Z).
  Variable axes : Z -> axis Rord.
  Variable user : list Z.
  Variable LY : Z -> layout.
  Variable dof : Z.
  Variable e0 : Z -> elem.
  Variable sizes : Z -> Z -> Z.
  Hypothesis Hset : setup_ok g2 g3 maxint size dim axes user LY.
  Hypothesis Hcl : forall i, 0 <= i < dim -> clamped (axes i).
  Hypothesis Hdof : 1 <= dof.
  Variable BD : Z -> basis_q.
  Hypothesis HBD : basis_tables dim axes BD.
  Variable value load : Z -> Z -> list (Z * R).
  Variable visit : Z -> Z -> bool.
  Variable npts : triple -> form_visit -> Z.
  Variable JW : triple -> form_visit -> Z -> R.
  Hypothesis Hvalue : forall d s, NoDup (map fst (value d s)) /\ forall k, In k (map fst (value d s)) -> 0 <= k.
  Hypothesis Hload : forall d s, NoDup (map fst (load d s)) /\ forall k, In k (map fst (load d s)) -> 0 <= k.
  Hypothesis Hnpts : forall e f, 1 <= npts e f.
  Variable TV : option (Z -> R).
  Variable L0 : Z -> Z -> R.
  Variable order : list Z.
  Hypothesis Horder : Permutation order (zseq 0 size).

  Let G := fun r => grid_of dof (ly_node (LY r)).
  Let N := fun d => if d <? dim then ax_nnp (axes d) else 1.
  Let nel := fun d => if d <? dim then ax_nel (axes d) else 1.
  Let nen := fun d => if d <? dim then ax_p (axes d) + 1 else 1.
  Let first := fun e d => if d <? dim then span_at (axes d) (coord e d) - ax_p (axes d) else 0.
  Let per := fun d => ax_periodic (axes d).
  Let elems := fun r => rank_elements (e0 r) dim (ly_elem_start (LY r)) (ly_elem_width (LY r)) (sizes r).
  Let mapping := fun r e => closure (elem_off dim axes e) (basis_nen dim axes) (gr_gstart (G r)) (gr_gwidth (G r)).
  Let ix := fun (t : triple) (c : Z) => dof * ao size G (lin N t) + c.
  Let field := fun (V : Z -> R) (t : triple) (c : Z) => V (ix t c).
  Let T : option nodal := option_map field TV.
  Let presc := node_prescribed dim per N value T.
  Let zeros := fun _ : Z => 0%R.
  Let heldU := fun e U => earr dof N nen first e (held presc (field U)).
  Let vec := fun K ins => compute_vector size G dof elems mapping K (opt_list TV ++ ins) L0 order.

(** ** C124: without a geometry, what IGASetBoundaryLoad adds is the boundary integral of the weak form *)
Section Parametric.
  Let area := fun e => boundary_area dim BD None (coord e).
  (** Right-hand side of IGAComputeSystem at a node without prescribed value. *)
Theorem C124_system : forall SysK SysF t c, in_box zero3 N t -> 0 <= c < dof -> presc t c = None ->
    vec (fun e ins => snd (k_system dim dof nen nel per visit value load area (is_some TV) npts JW SysK SysF e ins)) [] (ix t c) =
    (plain_vector dim dof N nen nel first visit npts JW (fun e f q => SysF e f q zeros) t c + weak_load dim axes load t c -
     node_row N dof (plain_matrix dim dof N nen nel first visit npts JW (fun e f q => SysK e f q zeros))
       (fun u d => match presc u d with Some v => v | None => 0 end) t c)%R.
  Proof.
    intros SysK SysF t c Ht Hc Hp.
    etransitivity; [exact (C81_system_vector Rord g2 g3 maxint size dim axes user LY dof e0 sizes Hset Hdof value load area visit npts JW Hvalue Hload Hnpts TV L0 order Horder SysK SysF t c Ht Hc)|].
    change (node_prescribed dim per N value T t c = None) in Hp. unfold system_rhs. unfold presc, T, field, ix, N, G, per in Hp. rewrite Hp. f_equal. f_equal.
    exact (loads_are_weak g2 g3 maxint size dim axes user LY Hset Hcl BD (basis_tables_fields dim axes BD HBD) load t c Ht).
  Qed.
  (** Residual of IGAComputeFunction. *)
Theorem C124_residual : forall cb U t c, in_box zero3 N t -> 0 <= c < dof -> presc t c = None ->
    vec (k_function dim dof nen nel per visit value load area (is_some TV) npts JW cb) [U] (ix t c) =
    (plain_vector dim dof N nen nel first visit npts JW (fun e f q => cb e f q (heldU e U) zeros) t c - weak_load dim axes load t c)%R.
  Proof.
    intros cb U t c Ht Hc Hp.
    etransitivity; [exact (C81_function Rord g2 g3 maxint size dim axes user LY dof e0 sizes Hset Hdof value load area visit npts JW Hvalue Hload Hnpts TV L0 order Horder cb U t c Ht Hc)|].
    change (node_prescribed dim per N value T t c = None) in Hp. unfold residual. unfold presc, T, field, ix, N, G, per in Hp. rewrite Hp. f_equal.
    exact (loads_are_weak g2 g3 maxint size dim axes user LY Hset Hcl BD (basis_tables_fields dim axes BD HBD) load t c Ht).
  Qed.
End Parametric.

(** ** C125: with a geometry *)
Section Mapped.
  Variable dS : triple -> Z -> Z -> R.          (* what IGA_BoundaryArea_2D/3D returned on the elements *)
  Let area := fun e => boundary_area dim BD (Some (dS e)) (coord e).
  Variable J : Z -> Z -> R.
  (** The face stretched by the same factor J everywhere: exact. *)
  Hypothesis HJ : forall e d s, 0 <= d < dim -> dS e d s = ((if dim =? 2 then 2 else 4) * J d s)%R.
  Hypothesis H1 : dim = 1 -> forall d s, J d s = 1%R.
  Let stretched := fun d s => map (fun x => (fst x, (snd x * J d s)%R)) (load d s).

  Lemma loaded_stretched nen' sizes' e a c :
    loaded dim per sizes' (coord e) nen' load (area e) a c = loaded dim per sizes' (coord e) nen' stretched (boundary_area dim BD None (coord e)) a c.
  Proof.
    unfold loaded.
    assert (F : forall l cur, (forall f, In f l -> 0 <= fst f < dim) ->
      fold_left (fun cur f => if on_face per sizes' (coord e) nen' a f then
        match lookup c (load (fst f) (snd f)) with
        | Some v => Some ((match cur with Some w => w | None => 0 end) + v * area e (fst f) (snd f))%R
        | None => cur end else cur) l cur =
      fold_left (fun cur f => if on_face per sizes' (coord e) nen' a f then
        match lookup c (stretched (fst f) (snd f)) with
        | Some v => Some ((match cur with Some w => w | None => 0 end) + v * boundary_area dim BD None (coord e) (fst f) (snd f))%R
        | None => cur end else cur) l cur).
    { induction l as [|f l IH]; intros cur Hl; cbn [fold_left]; [reflexivity|]. rewrite <- IH by (intros; apply Hl; right; assumption). f_equal.
      destruct (on_face _ _ _ _ _ _); [|reflexivity].
      assert (L : lookup c (stretched (fst f) (snd f)) = option_map (fun v => v * J (fst f) (snd f))%R (lookup c (load (fst f) (snd f)))).
      { unfold lookup, stretched. induction (load (fst f) (snd f)) as [|x k IHk]; cbn [map find]; [reflexivity|]. cbn [fst]. destruct (fst x =? c); [reflexivity|exact IHk]. }
      rewrite L. destruct (lookup c (load (fst f) (snd f))) as [v|]; cbn [option_map]; [|reflexivity]. f_equal. f_equal. unfold area, boundary_area.
      destruct (Z.eqb_spec dim 1) as [D|D]; [rewrite (H1 D); ring|]. rewrite HJ by (apply Hl; left; reflexivity). ring. }
    apply F. intros f Hf. unfold faces in Hf. apply in_flat_map in Hf. destruct Hf as (d & Hd & [<-|[<-|[]]]); apply in_zseq in Hd; cbn [fst]; lia.
  Qed.

Theorem C125_uniform_stretch : forall SysK SysF t c, in_box zero3 N t -> 0 <= c < dof -> presc t c = None ->
    vec (fun e ins => snd (k_system dim dof nen nel per visit value load area (is_some TV) npts JW SysK SysF e ins)) [] (ix t c) =
    (plain_vector dim dof N nen nel first visit npts JW (fun e f q => SysF e f q zeros) t c +
     rsum (fun f => match lookup c (load (fst f) (snd f)) with
                 | Some g => g * J (fst f) (snd f) * face_integral dim axes (fst f) (snd f) t
                 | None => 0 end) (faces dim) -
     node_row N dof (plain_matrix dim dof N nen nel first visit npts JW (fun e f q => SysK e f q zeros))
       (fun u d => match presc u d with Some v => v | None => 0 end) t c)%R.
  Proof.
    intros SysK SysF t c Ht Hc Hp.
    etransitivity; [exact (C81_system_vector Rord g2 g3 maxint size dim axes user LY dof e0 sizes Hset Hdof value load area visit npts JW Hvalue Hload Hnpts TV L0 order Horder SysK SysF t c Ht Hc)|].
    change (node_prescribed dim per N value T t c = None) in Hp. unfold system_rhs. unfold presc, T, field, ix, N, G, per in Hp. rewrite Hp. f_equal. f_equal.
    transitivity (weak_load dim axes stretched t c).
    - rewrite <- (loads_are_weak g2 g3 maxint size dim axes user LY Hset Hcl BD (basis_tables_fields dim axes BD HBD) stretched t c Ht).
      unfold plain_load, scatter. apply rsum_ext. intros e _. apply rsum_ext. intros a _. destruct (triple_eqb _ _); [|reflexivity].
      pose proof (loaded_stretched nen nel e a c) as Q. unfold per, nel, nen in Q. rewrite Q. reflexivity.
    - unfold weak_load. apply rsum_ext. intros f _. unfold stretched.
      assert (L : lookup c (map (fun x => (fst x, (snd x * J (fst f) (snd f))%R)) (load (fst f) (snd f))) = option_map (fun v => v * J (fst f) (snd f))%R (lookup c (load (fst f) (snd f)))).
      { unfold lookup. induction (load (fst f) (snd f)) as [|x k IHk]; cbn [map find]; [reflexivity|]. cbn [fst]. destruct (fst x =? c); [reflexivity|exact IHk]. }
      rewrite L. destruct (lookup c (load (fst f) (snd f))); reflexivity.
  Qed.
End Mapped.
End Loads.

(** What IGA_BoundaryArea_2D/3D returns is the quadrature of the length (area) element of the face, polynomial or
    rational: N holds values and derivatives of the functions B at the points u, Cx and Cw the control points. *)
Section Edge.
  Variables (m : Z -> Z) (axis side : Z) (X : Z -> Z -> Z -> R) (w : option (Z -> Z -> R)) (Cx : Z -> R) (Cw : option (Z -> R)).
  Variables (nqp : Z) (W : Z -> R) (N : Z -> Z -> Z -> R) (B : Z -> R -> R) (u : Z -> R).
  Hypothesis Hax : 0 <= axis < 2.
  Hypothesis Hside : side = 0 \/ side = 1.
  Hypothesis Hm : forall d, 0 <= d < 2 -> 1 <= m d.
  Hypothesis HX : forall c i j, 0 <= c < 2 -> 0 <= i < m 0 -> 0 <= j < m 1 -> Cx (c + 2 * (i + m 0 * j)) = X c i j.
  Hypothesis HC : match Cw, w with Some C, Some v => forall i j, 0 <= i < m 0 -> 0 <= j < m 1 -> C (i + m 0 * j) = v i j | None, None => True | _, _ => False end.
  Let nen := m (1 - axis).
  Hypothesis HB : forall b q, 0 <= b < nen -> 0 <= q < nqp -> derivable_pt_lim (B b) (u q) (N 1 b q) /\ B b (u q) = N 0 b q.
  Let wf := option_map (fun v b => v (fst (edge_index m axis side b)) (snd (edge_index m axis side b))) w.
  Hypothesis HW : forall q, 0 <= q < nqp -> match wf with Some v => rsum (fun b => v b * N 0%Z b q)%R (zseq 0 nen) <> 0%R | None => True end.
  (** The edge. *)
  Let edge := fun c v => curve_point nen wf (fun b => X c (fst (edge_index m axis side b)) (snd (edge_index m axis side b))) (fun b => B b v).

Theorem C125_edge_length : exists t, (forall q c, 0 <= q < nqp -> 0 <= c < 2 -> derivable_pt_lim (edge c) (u q) (t q c)) /\
  area_2d m axis side Cx Cw nqp W nen N = rsum (fun q => length2 (t q) * W q)%R (zseq 0 nqp).
Proof. exact (edge_length m axis side X w Cx Cw nqp W nen N B u Hax Hside Hm eq_refl HX HC HB HW). Qed.
(** Traversed at constant speed J, with weights of sum 2: the 2 J of [C125_uniform_stretch]. *)
Theorem C125_constant_speed : forall J, (forall q t, 0 <= q < nqp -> (forall c, 0 <= c < 2 -> derivable_pt_lim (edge c) (u q) (t c)) -> length2 t = J) ->
  rsum W (zseq 0 nqp) = 2%R -> area_2d m axis side Cx Cw nqp W nen N = (2 * J)%R.
Proof.
  intros J HJ H2. destruct C125_edge_length as (t & Ht & ->). rewrite <- H2, Rmult_comm, <- rsum_scal. apply rsum_ext. intros q Hq. apply in_zseq in Hq.
  f_equal. apply (HJ q); [lia|]. intros c Hc. apply Ht; lia.
Qed.
End Edge.
Section Face.
  Variables (m : Z -> Z) (axis side : Z) (X : Z -> triple -> R) (w : option (triple -> R)) (Cx : Z -> R) (Cw : option (Z -> R)).
  Variables (inqp : Z) (iW : Z -> R) (iN : Z -> Z -> Z -> R) (jnqp : Z) (jW : Z -> R) (jN : Z -> Z -> Z -> R) (A B : Z -> R -> R) (u v : Z -> R).
  Hypothesis Hax : 0 <= axis < 3.
  Hypothesis Hside : side = 0 \/ side = 1.
  Hypothesis Hm : forall d, 0 <= d < 3 -> 1 <= m d.
  Hypothesis HX : forall c t, 0 <= c < 3 -> in_box zero3 m t -> Cx (c + 3 * (coord t 0 + m 0 * coord t 1 + m 0 * m 1 * coord t 2)) = X c t.
  Hypothesis HC : match Cw, w with Some C, Some v => forall t, in_box zero3 m t -> C (coord t 0 + m 0 * coord t 1 + m 0 * m 1 * coord t 2) = v t | None, None => True | _, _ => False end.
  (** The two directions of the face. *)
  Let inen := m (if axis =? 0 then 1 else 0).
  Let jnen := m (if axis =? 2 then 1 else 2).
  Hypothesis HA : forall a q, 0 <= a < inen -> 0 <= q < inqp -> derivable_pt_lim (A a) (u q) (iN 1 a q) /\ A a (u q) = iN 0 a q.
  Hypothesis HB : forall b q, 0 <= b < jnen -> 0 <= q < jnqp -> derivable_pt_lim (B b) (v q) (jN 1 b q) /\ B b (v q) = jN 0 b q.
  Let wf := option_map (fun w a b => w (surf_index m axis side a b)) w.
  Hypothesis HW : forall q r, 0 <= q < inqp -> 0 <= r < jnqp ->
    match wf with Some w => rsum (fun b => rsum (fun a => w a b * (iN 0%Z a q * jN 0%Z b r)) (zseq 0 inen))%R (zseq 0 jnen) <> 0%R | None => True end.
  Let face := fun c x y => surface_point inen jnen wf (fun a b => X c (surf_index m axis side a b)) (fun a => A a x) (fun b => B b y).

Theorem C125_face_area : exists s t, (forall q r c, 0 <= q < inqp -> 0 <= r < jnqp -> 0 <= c < 3 ->
      derivable_pt_lim (fun x => face c x (v r)) (u q) (s q r c) /\ derivable_pt_lim (fun y => face c (u q) y) (v r) (t q r c)) /\
    area_3d m axis side Cx Cw inqp iW inen iN jnqp jW jnen jN = rsum (fun r => rsum (fun q => cross_length (s q r) (t q r) * iW q * jW r)%R (zseq 0 inqp)) (zseq 0 jnqp).
Proof.
  refine (face_area m axis side X w Cx Cw inqp iW inen iN jnqp jW jnen jN A B u v Hax Hside Hm _ _ HX HC HA HB HW).
  - unfold inen, tang. destruct (axis =? 0), (axis =? 1); reflexivity.
  - unfold jnen, tang. destruct (Z.eqb_spec axis 0), (Z.eqb_spec axis 1), (Z.eqb_spec axis 2); try reflexivity; lia.
Qed.
Theorem C125_constant_area : forall J, (forall q r s t, 0 <= q < inqp -> 0 <= r < jnqp -> (forall c, 0 <= c < 3 ->
      derivable_pt_lim (fun x => face c x (v r)) (u q) (s c) /\ derivable_pt_lim (fun y => face c (u q) y) (v r) (t c)) -> cross_length s t = J) ->
  rsum iW (zseq 0 inqp) = 2%R -> rsum jW (zseq 0 jnqp) = 2%R -> area_3d m axis side Cx Cw inqp iW inen iN jnqp jW jnen jN = (4 * J)%R.
Proof.
  intros J HJ H1 H2. destruct C125_face_area as (s & t & Ht & ->).
  rewrite (rsum_ext _ _ (fun r => (J * 2) * jW r)%R).
  - rewrite rsum_scal, H2. ring.
  - intros r Hr. apply in_zseq in Hr. rewrite (rsum_ext _ _ (fun q => (J * jW r) * iW q)%R).
    + rewrite rsum_scal, H1. ring.
    + intros q Hq. apply in_zseq in Hq. rewrite (HJ q r (s q r) (t q r)); [ring|lia|lia|]. intros c Hc. apply Ht; lia.
Qed.
End Face.

(** Whatever the geometry: the nodes of the element's face receive together the load times the area of the face,
    i.e. the quadrature of the face Jacobian. *)
Definition face_nodes (dim : Z) (nen : Z -> Z) (dir : Z) : Z := fold_left (fun n i => if i =? dir then n else n * nen i) (zseq 0 dim) 1.
Definition face_detJac (dim : Z) (BD : Z -> basis_q) (ID : Z -> Z) (dir : Z) : R :=
  fold_left (fun A i => if i =? dir then A else A * bq_detJac (BD i) (ID i))%R (zseq 0 dim) 1%R.
Theorem C125_total : forall dim BD dS ID dir side g, 2 <= dim <= 3 -> 0 <= dir < dim -> (forall i, 0 <= i < dim -> 1 <= bq_nen (BD i)) ->
  rsum (fun _ => g * boundary_area dim BD (Some dS) ID dir side)%R (zseq 0 (face_nodes dim (fun i => bq_nen (BD i)) dir)) =
  (g * (face_detJac dim BD ID dir * dS dir side))%R.
Proof.
  intros dim BD dS ID dir side g Hdim Hdir Hn.
  assert (C : forall n x, 0 <= n -> rsum (fun _ : Z => x) (zseq 0 n) = (IZR n * x)%R).
  { intros n x H. pattern n. apply natlike_ind; [change (zseq 0 0) with (@nil Z); unfold rsum; cbn [map fold_right]; ring| |exact H]. intros k Hk IH. unfold Z.succ. rewrite zseq_snoc by lia. rewrite rsum_app, IH, plus_IZR. unfold rsum. cbn [map fold_right]. ring. }
  assert (P : forall i, 0 <= i < dim -> (IZR (bq_nen (BD i)) <> 0)%R) by (intros i Hi; apply not_0_IZR; specialize (Hn i Hi); lia).
  assert (D : dim = 2 \/ dim = 3) by lia. unfold boundary_area, face_nodes, face_detJac. destruct D as [-> | ->].
  - pose proof (P 0 ltac:(lia)). pose proof (P 1 ltac:(lia)). pose proof (Hn 0 ltac:(lia)). pose proof (Hn 1 ltac:(lia)). change (zseq 0 2) with [0; 1].
    assert (D : dir = 0 \/ dir = 1) by lia. destruct D as [-> | ->]; cbn [fold_left]; zc; rewrite C by lia; rewrite mult_IZR; field; auto.
  - pose proof (P 0 ltac:(lia)). pose proof (P 1 ltac:(lia)). pose proof (P 2 ltac:(lia)).
    pose proof (Hn 0 ltac:(lia)). pose proof (Hn 1 ltac:(lia)). pose proof (Hn 2 ltac:(lia)). change (zseq 0 3) with [0; 1; 2].
    assert (D : dir = 0 \/ dir = 1 \/ dir = 2) by lia. destruct D as [-> | [-> | ->]]; cbn [fold_left]; zc; rewrite C by nia; rewrite !mult_IZR; field; auto.
Qed.

(** The distribution among the nodes is not the weak form's: one quadratic element whose edge has control points
    0, 1/4, 1 (length 1).  The midpoint rule is exact for the edge's length.  The first node receives 1/3 of the
    load, the integral of its function along the edge is 1/4. *)
Definition q_knots : Z -> R := fun i => if i <? 3 then 0%R else 1%R.
Definition q_basis : basis_q := mk_basis_q 1 1 3 (fun _ => 0) (fun _ => elem_detJac q_knots 2) (fun _ => [2%R]) (fun _ => [(1/2)%R]).
(** Control points of the 3 x 3 element: x depends on the first index (0, 1/4, 1), y = second index / 2. *)
Definition q_points : Z -> R := fun k => let b := k / 2 in
  if k mod 2 =? 0 then (if b mod 3 =? 0 then 0 else if b mod 3 =? 1 then 1/4 else 1)%R else (IZR (b / 3) / 2)%R.
(** Derivatives of the three quadratic functions at the midpoint: -1, 0, 1. *)
Definition q_tab : Z -> Z -> Z -> R := fun o b q => if o =? 1 then IZR (b - 1) else if b =? 1 then (1/2)%R else (1/4)%R.
Definition edge_speed (u : R) : R := (1/2 + u)%R.     (* derivative of x(u) = u(1-u)/2 + u^2 *)

Lemma q_function u : (0 <= u < 1)%R -> bspline q_knots 2 0 u = ((1 - u) * (1 - u))%R.
Proof.
  intros Hu. unfold bspline, bsp, span_ind, frac. change (Z.of_nat 2) with 2. change (Z.of_nat 1) with 1.
  repeat match goal with |- context [q_knots ?z] => let v := eval vm_compute in z in progress change z with v end.
  change (q_knots 0) with 0%R. change (q_knots 1) with 0%R. change (q_knots 2) with 0%R. change (q_knots 3) with 1%R. change (q_knots 4) with 1%R.
  repeat match goal with
  | |- context [Rle_dec ?a ?b] => destruct (Rle_dec a b); try lra
  | |- context [Rlt_dec ?a ?b] => destruct (Rlt_dec a b); try lra
  | |- context [Req_EM_T ?a ?b] => destruct (Req_EM_T a b); try lra
  end.
Qed.

Theorem C125_distribution_refuted : exists (BD : Z -> basis_q) (Cx : Z -> R) (W : Z -> R) (N : Z -> Z -> Z -> R),
  (* the edge (axis 1, side 0) and its length *)
  (forall u, derivable_pt_lim (fun u => 2 * u * (1 - u) * Cx 2%Z + u * u * Cx 4%Z)%R u (edge_speed u) /\ Cx 0 = 0%R /\ (forall b, 0 <= b < 3 -> Cx (1 + 2 * b) = 0%R)) /\
  area_2d (fun _ => 3) 1 0 Cx None 1 W 3 N = 2%R /\ RInt edge_speed 0 1 = 1%R /\
  (* what the first node receives of a unit load, and what it should *)
  boundary_area 2 BD (Some (fun d s => area_2d (fun _ => 3) d s Cx None 1 W 3 N)) (fun _ => 0) 1 0 = (1/3)%R /\
  RInt (fun u => bspline q_knots 2 0 u * edge_speed u)%R 0 1 = (1/4)%R.
Proof.
  assert (A : area_2d (fun _ => 3) 1 0 q_points None 1 (fun _ => 2%R) 3 q_tab = 2%R).
  { unfold area_2d, face_jacobian, rat, face_point. change (zseq 0 1) with [0]. change (zseq 0 2) with [0; 1]. change (zseq 0 3) with [0; 1; 2]. unfold rsum. cbn [map fold_right]. zc.
    assert (P : forall k v, q_points k = v -> q_points k = v) by auto.
    change (q_tab 1 0 0) with (-1)%R. change (q_tab 1 1 0) with 0%R. change (q_tab 1 2 0) with 1%R.
    repeat match goal with |- context [q_points ?z] => let v := eval vm_compute in z in progress change z with v end.
    change (q_points 0) with 0%R. change (q_points 2) with (1/4)%R. change (q_points 4) with 1%R.
    change (q_points 1) with (0/2)%R. change (q_points 3) with (0/2)%R. change (q_points 5) with (0/2)%R.
    match goal with |- context [Rabs ?x] => replace x with 1%R by field end. rewrite Rabs_R1, sqrt_1. ring. }
  exists (fun _ => q_basis), q_points, (fun _ => 2%R), q_tab. split; [|split; [exact A|split; [|split]]].
  - intros u. split; [|split; [reflexivity|]].
    + change (q_points 2) with (1/4)%R. change (q_points 4) with 1%R. unfold edge_speed. apply is_derive_Reals. auto_derive; [auto|field].
    + intros b Hb. assert (D : b = 0 \/ b = 1 \/ b = 2) by lia. destruct D as [-> | [-> | ->]]; [change (q_points (1 + 2*0)) with (0/2)%R|change (q_points (1 + 2*1)) with (0/2)%R|change (q_points (1 + 2*2)) with (0/2)%R]; field.
  - apply is_RInt_unique. replace 1%R with (minus (1/2 + 1*1/2)%R (0/2 + 0*0/2)%R) at 2 by (unfold minus, plus, opp; cbn; field).
    apply (is_RInt_derive (fun u => u/2 + u*u/2)%R); [intros x _; unfold edge_speed; auto_derive; [auto|field]|].
    intros x _. apply (ex_derive_continuous (fun u => 1/2 + u)%R). auto_derive. auto.
  - unfold boundary_area. zc. change (zseq 0 2) with [0; 1]. cbn [fold_left]. zc. rewrite A.
    change (bq_detJac q_basis 0) with ((1 - 0)/2)%R. change (bq_nen q_basis) with 3. field.
  - apply is_RInt_unique. apply (is_RInt_ext (fun u => (1-u)*(1-u)*(1/2+u))%R).
    { intros x Hx. rewrite Rmin_left, Rmax_right in Hx by lra. rewrite q_function by lra. reflexivity. }
    replace (1/4)%R with (minus (1/2 - 1*1*1/2 + 1*1*1*1/4)%R (0/2 - 0*0*0/2 + 0*0*0*0/4)%R) by (unfold minus, plus, opp; cbn; field).
    apply (is_RInt_derive (fun u => u/2 - u*u*u/2 + u*u*u*u/4)%R); [intros x _; auto_derive; [auto|field]|].
    intros x _. apply (ex_derive_continuous (fun u => (1-u)*(1-u)*(1/2+u))%R). auto_derive. auto.
Qed.

(** A surface in space (dim 2, three coordinates per control point): IGA_BoundaryArea_2D steps through the control
    points two numbers at a time.  The unit square in the plane z = 0: the edge x = 0 has length 1, the routine finds 0. *)
Definition s_points : Z -> R := fun k => nth (Z.to_nat k) [0; 0; 0; 1; 0; 0; 0; 1; 0; 1; 1; 0]%R 0%R.
Definition s_tab : Z -> Z -> Z -> R := fun o b q => if o =? 1 then IZR (2 * b - 1) else (1/2)%R.
Theorem C125_surface_refuted : exists (Cx : Z -> R) (W : Z -> R) (N : Z -> Z -> Z -> R),
  (* the end points of the edge, at positions 0 and 2 with three coordinates each, are (0,0,0) and (0,1,0) *)
  map Cx [0; 1; 2] = [0; 0; 0]%R /\ map Cx (map (Z.add (3 * face_point 2 (fun _ => 2) 0 0 1)) [0; 1; 2]) = [0; 1; 0]%R /\
  (N 1%Z 0%Z 0%Z = -1 /\ N 1%Z 1%Z 0%Z = 1 /\ W 0%Z = 2)%R /\
  area_2d (fun _ => 2) 0 0 Cx None 1 W 2 N = 0%R.
Proof.
  exists s_points, (fun _ => 2%R), s_tab. split; [reflexivity|]. split; [reflexivity|]. split; [repeat split; reflexivity|].
  unfold area_2d, face_jacobian, rat, face_point. change (zseq 0 1) with [0]. change (zseq 0 2) with [0; 1]. unfold rsum. cbn [map fold_right]. zc.
  change (s_tab 1 0 0) with (-1)%R. change (s_tab 1 1 0) with 1%R.
  repeat match goal with |- context [s_points ?z] => let v := eval vm_compute in z in progress change z with v end.
  change (s_points 0) with 0%R. change (s_points 1) with 0%R. change (s_points 4) with 0%R. change (s_points 5) with 0%R.
  match goal with |- context [Rabs ?x] => replace x with 0%R by field end. rewrite Rabs_R0, sqrt_0. ring.
Qed.

(** ** Example: quadratic functions on 3 x 3 elements, two processes, load 3 on the upper face of direction 0 *)
Definition l_n : list Z := [1; 2].
Definition l_LY (r : Z) : layout := layout_of 2 ex_raxes l_n (rank_coords l_n r).
Lemma l_setup_ok : setup_ok exact_g2 exact_g3 (2^31-1) 2 2 ex_raxes [-1; -1] l_LY.
Proof.
  destruct ex_rsetup_ok as (H2 & H3 & H4 & H5 & _). split; [exact H2|]. split; [exact H3|]. split; [exact H4|]. split; [intros i Hi; exact (H5 0 ltac:(lia))|].
  intros r Hr. unfold stage1, l_LY. change (map _ (zseq 0 2)) with [3; 3].
  assert (D : r = 0 \/ r = 1) by lia. destruct D as [-> | ->].
  - assert (E : partition exact_g2 exact_g3 (2^31-1) 2 0 [3; 3] [-1; -1] = (Ok, l_n, rank_coords l_n 0)) by (vm_compute; reflexivity). rewrite E. reflexivity.
  - assert (E : partition exact_g2 exact_g3 (2^31-1) 2 1 [3; 3] [-1; -1] = (Ok, l_n, rank_coords l_n 1)) by (vm_compute; reflexivity). rewrite E. reflexivity.
Qed.
Lemma l_clamped : forall i, 0 <= i < 2 -> clamped (ex_raxes i).
Proof. intros i _. split; [reflexivity|]. split; reflexivity. Qed.
Definition l_rule := snd (rule_run (fun z => dec z) [OpSetRule 1 [0%R] [2%R]] rule_create).
Definition l_BD (i : Z) : basis_q :=
  match init_quadrature (fun z => dec z) 0 true 2 7 ex_knots [2; 3; 4] l_rule with (_, _, Some B) => B | _ => q_basis end.
Lemma l_tables : basis_tables 2 ex_raxes l_BD.
Proof. intros i Hi. exists (fun z => dec z), 0%R, true, [2; 3; 4], l_rule. eexists. split; [reflexivity|]. reflexivity. Qed.
Definition l_load (d s : Z) : list (Z * R) := if (d =? 0) && (s =? 1) then [(0, 3%R)] else [].
Lemma l_wf : exists l, wf (ex_raxes 0) l /\ ends_nonempty 2 7 ex_knots.
Proof. destruct (setup_wf _ _ _ _ _ _ _ _ ex_rsetup_ok 0 ltac:(lia)) as (l & W & E). exists l. split; assumption. Qed.

(** Node (4,2): the third function of the face, support of length 5 over 3 elements: 3 * 5/3 = 5; nodes off the face: 0. *)
Example C124_example : weak_load 2 ex_raxes l_load (4,2,0) 0 = 5%R /\ weak_load 2 ex_raxes l_load (3,2,0) 0 = 0%R.
Proof.
  destruct l_wf as (l & W & E). destruct (ax_facts (ex_raxes 0) l W E (l_clamped 0 ltac:(lia))) as (Hp & Hm & Hnd & Hsup & Hnel & Hs & Hstep & Hf & Hl & _).
  destruct (l_clamped 0 ltac:(lia)) as (_ & K0 & K1).
  pose proof (bspline_integral 2 7 ex_knots Hp Hm Hnd K0 K1 Hsup 3 _ Hnel Hs Hstep Hf Hl 2 ltac:(lia)) as I.
  pose proof (trace_right 2 7 ex_knots Hp Hm Hnd K0 K1 Hsup 3 _ Hnel Hs Hstep Hf Hl 4 ltac:(lia)) as T4.
  pose proof (trace_right 2 7 ex_knots Hp Hm Hnd K0 K1 Hsup 3 _ Hnel Hs Hstep Hf Hl 3 ltac:(lia)) as T3.
  unfold weak_load. change (faces 2) with [(0,0); (0,1); (1,0); (1,1)]. unfold rsum. cbn [map fold_right fst snd].
  change (lookup 0 (l_load 0 0)) with (@None R). change (lookup 0 (l_load 0 1)) with (Some 3%R). change (lookup 0 (l_load 1 0)) with (@None R). change (lookup 0 (l_load 1 1)) with (@None R).
  unfold face_integral. zc. unfold coord. zc. unfold integral_1d, trace_1d. zc. cbn [ex_raxes ax_p ax_m ax_U].
  change (7 - 2) with 5 in *. change (5 - 1) with 4 in *. rewrite I, T4, T3. unfold delta. destruct (Z.eq_dec 4 4); [|lia]. destruct (Z.eq_dec 3 4); [lia|].
  change (ex_knots (2 + 2 + 1)) with 5%R. change (ex_knots 2) with 0%R. split; field.
Qed.
Lemma l_load_ok : forall d s, NoDup (map fst (l_load d s)) /\ forall k, In k (map fst (l_load d s)) -> 0 <= k.
Proof. intros d s. unfold l_load. destruct (_ && _); cbn; split; try constructor; auto; try constructor; intuition lia. Qed.
Lemma l_node : in_box zero3 (fun d => if d <? 2 then ax_nnp (ex_raxes d) else 1) (4,2,0).
Proof. unfold in_box, zero3. zc. cbn [ax_nnp ex_raxes]. lia. Qed.
(** The theorem applies to it: two processes, no prescribed values, any callback. *)
Example C124_example_system (SysK SysF : cb0) :=
  C124_system exact_g2 exact_g3 (2^31-1) 2 2 ex_raxes [-1; -1] l_LY 1 ex_e0 (fun _ _ => 5) l_setup_ok l_clamped ltac:(lia) l_BD l_tables
    (fun _ _ => []) l_load (fun _ _ => true) (fun _ _ => 1) (fun _ _ _ => 1%R) (fun d s => conj (NoDup_nil Z) (fun k (H : False) => match H with end)) l_load_ok ex_npts None (fun _ _ => 5%R) [1; 0] ex_order
    SysK SysF (4,2,0) 0 l_node ltac:(lia) eq_refl.
(** C125: doubling the length of the loaded edge (J = 2). *)
Example C125_example_stretch (SysK SysF : cb0) :=
  C125_uniform_stretch exact_g2 exact_g3 (2^31-1) 2 2 ex_raxes [-1; -1] l_LY 1 ex_e0 (fun _ _ => 5) l_setup_ok l_clamped ltac:(lia) l_BD l_tables
    (fun _ _ => []) l_load (fun _ _ => true) (fun _ _ => 1) (fun _ _ _ => 1%R) (fun d s => conj (NoDup_nil Z) (fun k (H : False) => match H with end)) l_load_ok ex_npts None (fun _ _ => 5%R) [1; 0] ex_order
    (fun _ _ _ => (2 * 2)%R) (fun _ _ => 2%R) (fun _ _ _ _ => eq_refl) (fun H : 2 = 1 => ltac:(discriminate H))
    SysK SysF (4,2,0) 0 l_node ltac:(lia) eq_refl.
(** C125: the edge from (0,0) to (2,0) of an element of two by two control points; functions 1-v, v on [0,1]; one point of weight 2: 2 * 2. *)
Definition e_points (c i j : Z) : R := if (c =? 0) && (i =? 1) && (j =? 0) then 2%R else 0%R.
Definition e_B (b : Z) (v : R) : R := if b =? 0 then (1 - v)%R else v.
Definition e_tab (o b q : Z) : R := if o =? 1 then (if b =? 0 then -1 else 1)%R else (1/2)%R.
Lemma e_tab_ok b q : 0 <= b < 2 -> 0 <= q < 1 -> derivable_pt_lim (e_B b) (1/2) (e_tab 1 b q) /\ e_B b (1/2) = e_tab 0 b q.
Proof.
  intros Hb Hq. assert (D : b = 0 \/ b = 1) by lia. destruct D as [-> | ->]; unfold e_B, e_tab; zc; split; try lra; apply is_derive_Reals; auto_derive; auto; ring.
Qed.
Example C125_example_speed : area_2d (fun _ => 2) 1 0 (fun k => if k =? 2 then 2%R else 0%R) None 1 (fun _ => 2%R) 2 e_tab = (2 * 2)%R.
Proof.
  apply (C125_constant_speed (fun _ => 2) 1 0 e_points None (fun k => if k =? 2 then 2%R else 0%R) None 1 (fun _ => 2%R) e_tab e_B (fun _ => (1/2)%R)); auto; try lia.
  - intros c i j Hc Hi Hj. unfold e_points. destruct (Z.eqb_spec (c + 2 * (i + 2 * j)) 2), (Z.eqb_spec c 0), (Z.eqb_spec i 1), (Z.eqb_spec j 0); cbn [andb]; try reflexivity; lia.
  - intros b q Hb Hq. apply e_tab_ok; lia.
  - cbn [option_map]. intros; exact I.
  - intros q t Hq Ht. cbn [option_map] in Ht. unfold curve_point in Ht. change (zseq 0 2) with [0; 1] in Ht.
    assert (T0 : t 0 = 2%R).
    { eapply uniqueness_limite; [apply (Ht 0); lia|]. apply is_derive_Reals. unfold rsum. cbn [map fold_right]. unfold edge_index, e_points, e_B. zc. cbn [andb fst snd]. zc. cbn [andb]. auto_derive; auto. ring. }
    assert (T1 : t 1 = 0%R).
    { eapply uniqueness_limite; [apply (Ht 1); lia|]. apply is_derive_Reals. unfold rsum. cbn [map fold_right]. unfold edge_index, e_points, e_B. zc. cbn [andb fst snd]. zc. cbn [andb]. auto_derive; auto. ring. }
    unfold length2. rewrite T0, T1. match goal with |- sqrt ?x = _ => replace x with (2 * 2)%R by ring end. apply sqrt_square. lra.
  - change (zseq 0 1) with [0]. unfold rsum. cbn [map fold_right]. ring.
Qed.
(** C125: lower face of direction 2 of a box 3 x 2 x 1: 4 * 6. *)
Definition b_points (c : Z) (t : triple) : R := if c =? 0 then IZR (3 * coord t 0) else if c =? 1 then IZR (2 * coord t 1) else IZR (coord t 2).
Definition b_Cx (k : Z) : R := let t := k / 3 in b_points (k mod 3) (t mod 2, (t / 2) mod 2, t / 4).
Example C125_example_area : area_3d (fun _ => 2) 2 0 b_Cx None 1 (fun _ => 2%R) 2 e_tab 1 (fun _ => 2%R) 2 e_tab = (4 * 6)%R.
Proof.
  apply (C125_constant_area (fun _ => 2) 2 0 b_points None b_Cx None 1 (fun _ => 2%R) e_tab 1 (fun _ => 2%R) e_tab e_B e_B (fun _ => (1/2)%R) (fun _ => (1/2)%R)); auto; try lia.
  - intros c t Hc Ht. destruct t as [[i j] k]. unfold in_box, zero3 in Ht. unfold coord at 1 2 3. zc. unfold b_Cx.
    replace ((c + 3 * (i + 2 * j + 2 * 2 * k)) / 3) with (i + 2 * j + 4 * k) by lia. replace ((c + 3 * (i + 2 * j + 2 * 2 * k)) mod 3) with c by lia.
    replace ((i + 2 * j + 4 * k) mod 2) with i by lia. replace ((i + 2 * j + 4 * k) / 4) with k by lia. replace ((i + 2 * j + 4 * k) / 2 mod 2) with j by lia. reflexivity.
  - intros b q Hb Hq. apply e_tab_ok; lia.
  - intros b q Hb Hq. apply e_tab_ok; lia.
  - cbn [option_map]. intros; exact I.
  - intros q r s t Hq Hr Hst. cbn [option_map] in Hst. unfold surface_point in Hst. change (zseq 0 2) with [0; 1] in Hst.
    assert (T : (s 0%Z = 3 /\ s 1%Z = 0 /\ s 2%Z = 0 /\ t 0%Z = 0 /\ t 1%Z = 2 /\ t 2%Z = 0)%R).
    { repeat split; (eapply uniqueness_limite; [first [apply (proj1 (Hst 0 ltac:(lia)))|apply (proj1 (Hst 1 ltac:(lia)))|apply (proj1 (Hst 2 ltac:(lia)))|apply (proj2 (Hst 0 ltac:(lia)))|apply (proj2 (Hst 1 ltac:(lia)))|apply (proj2 (Hst 2 ltac:(lia)))]|]); apply is_derive_Reals; unfold rsum; cbn [map fold_right];
      unfold surf_index, b_points, e_B, coord; zc; auto_derive; auto; try ring; rewrite !mult_IZR; field. }
    destruct T as (A0 & A1 & A2 & B0 & B1 & B2). unfold cross_length. rewrite A0, A1, A2, B0, B1, B2.
    match goal with |- sqrt ?x = _ => replace x with (6 * 6)%R by ring end. apply sqrt_square. lra.
  - change (zseq 0 1) with [0]. unfold rsum. cbn [map fold_right]. ring.
  - change (zseq 0 1) with [0]. unfold rsum. cbn [map fold_right]. ring.
Qed.
(** C125: the two nodes of that edge share its length 2 of a load 3. *)
Example C125_example_total : let BD := fun _ : Z => mk_basis_q 1 1 2 (fun _ => 0) (fun _ => (1/2)%R) (fun _ => [2%R]) (fun _ => [(1/2)%R]) in
  rsum (fun _ => 3 * boundary_area 2 BD (Some (fun _ _ => (2*2)%R)) (fun _ => 0%Z) 1 0)%R (zseq 0 2) = 6%R.
Proof.
  intros BD. pose proof (C125_total 2 BD (fun _ _ => (2*2)%R) (fun _ => 0) 1 0 3%R ltac:(lia) ltac:(lia) ltac:(intros; cbn; lia)) as H.
  change (face_nodes 2 (fun i => bq_nen (BD i)) 1) with 2 in H. rewrite H. unfold face_detJac. change (zseq 0 2) with [0; 1]. cbn [fold_left]. zc.
  change (bq_detJac (BD 0) 0) with (1/2)%R. field.
Qed.

Print Assumptions C124_system.
Print Assumptions C124_residual.
Print Assumptions C125_uniform_stretch.
Print Assumptions C125_edge_length.
Print Assumptions C125_constant_speed.
Print Assumptions C125_face_area.
Print Assumptions C125_constant_area.
Print Assumptions C125_total.
Print Assumptions C125_distribution_refuted.
Print Assumptions C125_surface_refuted.
