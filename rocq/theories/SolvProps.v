(** C43-C46: element indices, node coordinates, field index sets and preconditioner blocks. *)
From Coq Require Import ZArith List Bool Lia Reals Lra Permutation.
From Coq Require Import ZifyBool ZifyNat.
From Verif Require Import Prelude RealOrd Box AxisModel AxisSpec AxisProofs PartModel PartSpec PartProofs SetupModel SetupProofs SetupProps CollocProofs GridModel GridSpec GridProofs GridSetup GridProps
  MatModel RuleModel RuleSpec RuleProps LagModel LagSpec LagProofs LagProofs2 LagProps SolvModel SolvProofs.
Import ListNotations.
Open Scope Z_scope.

(** * C43 *)
(** The requested counts and the requested column map are those of the element; outputs not asked for are left alone. *)
Theorem C43_counts_and_column_map :
  forall T (el : indices T) rq o, let i := get_indices el rq o in
  (rq_neq rq = true -> ix_neq i = ix_neq el) /\ (rq_nen rq = true -> ix_nen i = ix_nen el) /\
  (rq_colmap rq = true -> ix_colmap i = ix_colmap el) /\
  (rq_neq rq = false -> ix_neq i = ix_neq o) /\ (rq_nen rq = false -> ix_nen i = ix_nen o) /\
  (rq_colmap rq = false -> ix_colmap i = ix_colmap o) /\ (rq_rowmap rq = false -> ix_rowmap i = ix_rowmap o).
Proof.
  intros T el rq o i. unfold i, get_indices. cbn [ix_neq ix_nen ix_colmap ix_rowmap].
  destruct (rq_neq rq), (rq_nen rq), (rq_colmap rq); repeat split; auto; discriminate.
Qed.
Print Assumptions C43_counts_and_column_map.

(** A requested row map is never stored: the caller's pointer keeps its old value. *)
Theorem C43_row_map_refuted :
  exists (el : indices (list Z)) rq, rq_rowmap rq = true /\ rq_neq rq = true /\ rq_colmap rq = true /\
  forall o, ix_rowmap (get_indices el rq o) = ix_rowmap o /\ (ix_rowmap o = [] -> ix_rowmap (get_indices el rq o) <> ix_rowmap el).
Proof.
  exists (mk_indices 1 [7] 2 [7;8]), (mk_requests true true true true). repeat split; auto.
  intros E. cbn. rewrite E. discriminate.
Qed.
Print Assumptions C43_row_map_refuted.
Example C43_example : get_indices (mk_indices 1 [7] 2 [7;8]) (mk_requests true false true true) (mk_indices 0 [] 0 []) = mk_indices 1 [] 2 [7;8].
Proof. reflexivity. Qed.

(** * C44 *)
Lemma nth_blocks {T} (n : Z) (f : triple -> Z -> T) s w i j k c d : 0 <= i < w 0 -> 0 <= j < w 1 -> 0 <= k < w 2 -> 0 <= c < n ->
  nth (Z.to_nat (n * lin w (i,j,k) + c)) (flat_map (fun t => map (f t) (zseq 0 n)) (box s w)) d = f (s 0 + i, s 1 + j, s 2 + k) c.
Proof.
  intros Hi Hj Hk Hc. pose proof (lin_range w i j k Hi Hj Hk) as LR.
  assert (L : Z.of_nat (length (box s w)) = vol w).
  { apply len_box3. intros e He. assert (C : e = 0 \/ e = 1 \/ e = 2) by lia. destruct C as [-> | [-> | ->]]; lia. }
  assert (0 <= n * lin w (i,j,k)) by (apply Z.mul_nonneg_nonneg; lia).
  replace (Z.to_nat (n * lin w (i,j,k) + c)) with (Z.to_nat (lin w (i,j,k)) * Z.to_nat n + Z.to_nat c)%nat.
  - rewrite nth_flat_map_const with (da := (0,0,0)).
    + rewrite nth_box by auto. rewrite nth_indep with (d' := f (s 0 + i, s 1 + j, s 2 + k) 0) by (rewrite map_length, length_zseq; lia).
      rewrite map_nth, nth_zseq by lia. f_equal. lia.
    + intros. rewrite map_length, length_zseq. reflexivity.
    + lia.
    + lia.
  - rewrite Z2Nat.inj_add, Z2Nat.inj_mul by lia. lia.
Qed.

(** The list of (owned node, index in the ghosted box). *)
Lemma owned_pairs s w S W : subbox s w S W ->
  filter (fun ti => in_boxb s w (fst ti)) (combine (box S W) (zseq 0 (Z.of_nat (length (box S W))))) =
  map (fun t => (t, lin W (tsub S t))) (box s w).
Proof.
  intros HS. set (b := box S W). set (F := filter _ _).
  assert (E1 : map fst F = box s w).
  { unfold F. rewrite filter_combine_fst by (rewrite length_zseq; lia). apply filter_box; auto. }
  assert (E2 : forall p, In p F -> p = (fst p, lin W (tsub S (fst p)))).
  { intros [[[i j] k] x] Hp. unfold F in Hp. apply filter_In in Hp. destruct Hp as [Hp _]. apply in_combine_zseq in Hp. destruct Hp as [Hx Hn].
    rewrite Z.sub_0_r in Hn. cbn [fst]. f_equal.
    assert (Hin : In (i,j,k) b) by (eapply nth_error_In; eauto). apply In_box in Hin. unfold in_box in Hin.
    unfold tsub. assert (LR := lin_range W (i - S 0) (j - S 1) (k - S 2) ltac:(lia) ltac:(lia) ltac:(lia)).
    assert (LB : Z.of_nat (length b) = vol W).
    { apply len_box3. intros e He. assert (C : e = 0 \/ e = 1 \/ e = 2) by lia. destruct C as [-> | [-> | ->]]; lia. }
    assert (HN : nth (Z.to_nat (lin W (i - S 0, j - S 1, k - S 2))) b (0,0,0) = (i,j,k)).
    { unfold b. rewrite nth_box by lia. f_equal; [f_equal|]; lia. }
    apply nth_error_nth with (d := (0,0,0)) in Hn. rewrite <- HN in Hn.
    assert (Z.to_nat x = Z.to_nat (lin W (i - S 0, j - S 1, k - S 2))); [|lia].
    eapply NoDup_nth; [apply (NoDup_box S W)| | |exact Hn]; fold b; lia. }
  rewrite <- E1, map_map. symmetry. transitivity (map (fun x => x) F); [|apply map_id]. apply map_ext_in. intros p Hp. symmetry. auto.
Qed.

Lemma coords_geometry_eq {T} nsd g (xyz : Z -> T) : subbox (gr_lstart g) (gr_lwidth g) (gr_gstart g) (gr_gwidth g) ->
  coords_geometry nsd g xyz = flat_map (fun t => map (fun c => xyz (lin (gr_gwidth g) (tsub (gr_gstart g) t) + c)) (zseq 0 nsd)) (box (gr_lstart g) (gr_lwidth g)).
Proof.
  intros HS. unfold coords_geometry. rewrite flat_map_if, owned_pairs by auto.
  rewrite flat_map_concat_map, map_map, <- flat_map_concat_map. reflexivity.
Qed.

Section Setup.
  Context {O : KnotOrd}.
  Variables (g2 : Z -> Z -> Z -> Z) (g3 : Z -> Z -> Z -> Z -> Z) (maxint size dim : Z) (axes : Z -> axis O) (user : list Z) (LY : Z -> layout).
  Hypothesis S : setup_ok g2 g3 maxint size dim axes user LY.
  Lemma setup_sub dof r : 0 <= r < size -> let g := grid_of dof (ly_node (LY r)) in subbox (gr_lstart g) (gr_lwidth g) (gr_gstart g) (gr_gwidth g).
  Proof. intros Hr g d Hd. pose proof (setup_node_facts _ _ _ _ _ _ _ _ S r d Hr Hd). cbn [g grid_of gr_lstart gr_lwidth gr_gstart gr_gwidth]. lia. Qed.
  Lemma setup_sizes dof r : 0 <= r < size -> 0 <= dof -> forall d, 0 <= d < 3 -> 1 <= gr_lwidth (grid_of dof (ly_node (LY r))) d.
  Proof. intros Hr _ d Hd. pose proof (setup_node_facts _ _ _ _ _ _ _ _ S r d Hr Hd). cbn [grid_of gr_lwidth]. lia. Qed.
End Setup.

(** Coordinates per node: the parameter dimension without geometry, else the geometry dimension (at least dim, at most 3). *)
Theorem C44_block_size : forall dim gnsd, 1 <= dim <= 3 -> gnsd = 0 \/ dim <= gnsd <= 3 ->
  coord_nsd dim gnsd = if gnsd =? 0 then dim else gnsd.
Proof.
  intros dim gnsd Hd Hg. unfold coord_nsd, clip. replace (dim <? 1) with false by lia. replace (3 <? dim) with false by lia.
  destruct (Z.eqb_spec gnsd 0); destruct (Z.ltb_spec gnsd dim); destruct (Z.ltb_spec 3 gnsd); lia.
Qed.
Print Assumptions C44_block_size.

(** Without geometry: the vector has nsd entries per owned node, in the order of the node's global number, and they
    are the points of the node's basis functions. *)
Theorem C44_points_layout :
  forall {O : KnotOrd} g2 g3 maxint size dim (axes : Z -> axis O) user LY dof, setup_ok g2 g3 maxint size dim axes user LY -> 1 <= dof ->
  let G r := grid_of dof (ly_node (LY r)) in
  forall T nsd (pt : Z -> Z -> T) r, 0 <= r < size -> 1 <= nsd <= 3 ->
  Z.of_nat (length (coords_points nsd (G r) pt)) = nsd * nlocal (G r) /\
  forall i j k c d, in_box (gr_lstart (G r)) (gr_lwidth (G r)) (i,j,k) -> 0 <= c < nsd ->
    let b := ao size G (lin (node_size dim axes) (i,j,k)) in
    nth (Z.to_nat (nsd * (b - off G r) + c)) (coords_points nsd (G r) pt) d = pt c (if c =? 0 then i else if c =? 1 then j else k).
Proof.
  intros O g2 g3 maxint size dim axes user LY dof S Hdof G T nsd pt r Hr Hn.
  pose proof (setup_world _ _ _ _ _ _ _ _ S dof Hdof) as W. fold G in W. split.
  - unfold coords_points. rewrite length_flat_map_const with (n := Z.to_nat nsd) by (intros; rewrite map_length, length_zseq; auto).
    rewrite Nat2Z.inj_mul. unfold nlocal. rewrite <- len_box3 with (s := gr_lstart (G r)); [lia|].
    intros d Hd. pose proof (setup_sizes _ _ _ _ _ _ _ _ S dof r Hr ltac:(lia) d Hd). cbn [G grid_of gr_lwidth] in *. lia.
  - intros i j k c d Hin Hc b. destruct (own_block _ _ _ _ W r i j k Hr Hin) as [E _]. unfold b. rewrite E.
    unfold in_box in Hin. unfold coords_points.
    match goal with |- nth (Z.to_nat (nsd * ?x + c)) _ _ = _ => replace x with (lin (gr_lwidth (G r)) (i - gr_lstart (G r) 0, j - gr_lstart (G r) 1, k - gr_lstart (G r) 2)) by lia end.
    rewrite (nth_blocks nsd (fun t c => pt c (coord_of t c))) by lia. unfold coord_of.
    replace (gr_lstart (G r) 0 + (i - gr_lstart (G r) 0)) with i by lia.
    replace (gr_lstart (G r) 1 + (j - gr_lstart (G r) 1)) with j by lia.
    replace (gr_lstart (G r) 2 + (k - gr_lstart (G r) 2)) with k by lia. reflexivity.
Qed.
Print Assumptions C44_points_layout.

(** The point of B-spline number i is its Greville abscissa, the mean of its p interior knots. *)
Theorem C44_point_is_knot_average :
  forall lit maxreal i (a : axis Rord), 1 <= ax_p a ->
  (IZR (ax_p a) * compute_point lit maxreal false i a = rsum (fun j => ax_U a (i + j)%Z) (zseq 1 (ax_p a)))%R.
Proof.
  intros lit maxreal i a Hp. unfold compute_point. replace (ax_p a =? 0) with false by lia. apply greville_mean; auto.
Qed.
Print Assumptions C44_point_is_knot_average.

(** With the basis IGA_BASIS_LAGRANGE the point of the i-th function of element e is the node at which that function is
    one (C32_lagrange_basis). *)
Lemma c0_blocks lit maxreal p m U spans r r' B : valid_knots (O:=Rord) p m U -> is_element_list (O:=Rord) p m U spans ->
  init_quadrature lit maxreal false p m U spans r = (Ok, r', Some B) ->
  forall e, 0 <= e < bq_nel B -> let k := nth (Z.to_nat e) spans 0 in
  bq_offset B e = p * e /\ k = p * (e+1) /\ (U k < U (k+1)%Z)%R /\
  (forall j, p * e + 1 <= j <= k -> U j = U k) /\ (forall j, k + 1 <= j <= k + p -> U j = U (k+1)).
Proof.
  intros HV HE HQ e He k. destruct (nodal_offsets _ _ _ _ _ _ _ _ _ HV HE HQ e He) as [Ek Eo]. fold k in Ek.
  assert (M : mult_ok p m U (Z.to_nat (m+1)) 1 = true /\ bq_nel B = Z.of_nat (length spans)).
  { unfold init_quadrature in HQ. destruct (if (ru_nqp r <? 1)%Z then _ else _) as [s r1]. destruct s; try discriminate.
    destruct (mult_ok p m U (Z.to_nat (m+1)) 1) eqn:E; cbn [negb andb] in HQ; [|discriminate]. split; auto.
    destruct (negb (rtype_eqb (ru_type r1) RReduced)).
    - injection HQ as <- <-. auto.
    - destruct (if (_ && _)%bool then _ else _) as [s2 r2]. destruct s2; try discriminate. injection HQ as <- <-. auto. }
  destruct M as [M L].
  assert (EL : is_element (O:=Rord) p m U k) by (apply (proj1 HE), nth_In; lia).
  destruct HV as (Hp & Hm & HN & HB). destruct EL as [EB EU]. apply klt_R in EU.
  destruct (mult_ok_blocks p m U HN Hp HB (Z.to_nat (m+1)) 1 ltac:(lia) ltac:(intros; lia) M) as (n & N1 & N2 & N3 & _).
  split; [auto|]. split; [auto|]. split; [auto|]. split.
  - intros j Hj. rewrite (N3 e j), (N3 e k); auto; nia.
  - intros j Hj. assert (e + 1 < n) by nia. rewrite (N3 (e+1) j), (N3 (e+1) (k+1)); auto; nia.
Qed.

Theorem C44_lagrange_points :
  forall lit maxreal p m (U : Z -> R) spans r r' B (a : axis Rord), valid_knots (O:=Rord) p m U -> is_element_list (O:=Rord) p m U spans ->
  init_quadrature lit maxreal false p m U spans r = (Ok, r', Some B) -> ax_p a = p -> ax_U a = U ->
  forall e i, 0 <= e < bq_nel B -> 0 <= i <= p -> let k := nth (Z.to_nat e) spans 0 in
  compute_point lit maxreal false (bq_offset B e + i) a = (U k + (U (k+1)%Z - U k) * (IZR i / IZR p))%R.
Proof.
  intros lit maxreal p m U spans r r' B a HV HE HQ <- <- e i He Hi k.
  destruct (c0_blocks _ _ _ _ _ _ _ _ _ HV HE HQ e He) as (Eo & Ek & _ & L & R'). fold k in Ek, L, R'. destruct HV as (Hp & _).
  assert (P0 : (0 < IZR (ax_p a))%R) by (apply IZR_lt; lia).
  apply Rmult_eq_reg_l with (IZR (ax_p a)); [|lra]. rewrite C44_point_is_knot_average by auto. rewrite Eo.
  assert (ZS : zseq 1 (ax_p a) = zseq 1 (ax_p a - i) ++ zseq (1 + (ax_p a - i)) i) by (rewrite <- zseq_app by lia; f_equal; lia). rewrite ZS, rsum_app.
  assert (CS : forall s n v f, 0 <= n -> (forall j, In j (zseq s n) -> f j = v) -> rsum f (zseq s n) = (IZR n * v)%R).
  { intros s n v f Hn Hf. rewrite (rsum_ext Z f (fun _ => v)) by auto. clear Hf. revert Hn. generalize n. apply natlike_ind.
    - rewrite zseq_nil by lia. unfold rsum. cbn. lra.
    - intros x Hx IH. unfold Z.succ. rewrite zseq_snoc, rsum_app, IH, plus_IZR by auto. unfold rsum. cbn. lra. }
  rewrite (CS _ _ (ax_U a k)), (CS _ _ (ax_U a (k+1)%Z)).
  - rewrite minus_IZR. field. lra.
  - lia.
  - intros j Hj. apply in_zseq in Hj. apply R'. lia.
  - lia.
  - intros j Hj. apply in_zseq in Hj. apply L. lia.
Qed.
Print Assumptions C44_lagrange_points.

Lemma lobatto_ends lit p x w : lit S36 = 1%R -> 1 <= p <= 9 -> gauss_lobatto lit Ropp (p+1) = Some (x, w) ->
  lobatto_nodes lit Ropp (p + 1) = Some x /\ nth 0 x 0%R = (-1)%R /\ nth (Z.to_nat p) x 0%R = 1%R.
Proof.
  intros H1 Hp. assert (C : p = 1 \/ p = 2 \/ p = 3 \/ p = 4 \/ p = 5 \/ p = 6 \/ p = 7 \/ p = 8 \/ p = 9) by lia.
  destruct C as [-> | [-> | [-> | [-> | [-> | [-> | [-> | [-> | ->]]]]]]]];
    (intros T1; injection T1 as <- <-; split; [reflexivity|];
     split; [transitivity (- lit S36)%R; [reflexivity|rewrite H1; ring]|transitivity (- - lit S36)%R; [reflexivity|rewrite H1; ring]]).
Qed.

(** The same for IGA_BASIS_SPECTRAL and degrees 1..9 (C32_spectral_basis). *)
Theorem C44_spectral_points :
  forall lit maxreal p m (U : Z -> R) spans r r' B (a : axis Rord), rounds lit -> lit S36 = 1%R -> p <= 9 ->
  valid_knots (O:=Rord) p m U -> is_element_list (O:=Rord) p m U spans ->
  init_quadrature lit maxreal false p m U spans r = (Ok, r', Some B) -> ax_p a = p -> ax_U a = U -> ax_nel a = bq_nel B -> ax_span a = Some spans ->
  exists x w, gauss_lobatto lit Ropp (p+1) = Some (x, w) /\
  forall e i, 0 <= e < bq_nel B -> 0 <= i <= p -> let k := nth (Z.to_nat e) spans 0 in
  compute_point lit maxreal true (bq_offset B e + i) a = ((nth (Z.to_nat i) x 0 + 1) * ((U (k+1)%Z - U k) / 2) + U k)%R.
Proof.
  intros lit maxreal p m U spans r r' B a HL H1 H9 HV HE HQ <- <- Hnel Hspan.
  pose proof (fun e He => C67_nodal_fields_continuous lit maxreal _ m _ spans r r' B (fun _ _ => 0%R) HL H1 HV HE HQ e (proj1 He) (proj2 He)) as CT.
  pose proof (c0_blocks _ _ _ _ _ _ _ _ _ HV HE HQ) as CB. pose proof HV as (Hp & _).
  destruct (C32_spectral_basis lit (ax_p a) 0 (fun i => IZR i) (fun _ _ => 0%R) HL ltac:(lia) ltac:(apply IZR_lt; lia)) as (x & w & T1 & _).
  exists x, w. split; [exact T1|].
  pose proof (lobatto_ends lit (ax_p a) x w H1 ltac:(lia) T1) as T.
  destruct T as (T2 & T3 & T4).
  intros e i He Hi k. destruct (CB e He) as (Eo & Ek & _). fold k in Ek. rewrite Eo.
  unfold compute_point. replace (ax_p a =? 0) with false by lia. replace (16 <? ax_p a) with false by lia. cbv zeta.
  assert (SP : forall e, span_at a e = nth (Z.to_nat e) spans 0) by (intros; unfold span_at; rewrite Hspan; reflexivity).
  destruct (Z.eq_dec i (ax_p a)) as [->|Hne].
  - replace ((ax_p a * e + ax_p a) / ax_p a) with (e+1) by (replace (ax_p a * e + ax_p a) with ((e+1) * ax_p a) by ring; rewrite Z.div_mul; lia).
    replace ((ax_p a * e + ax_p a) mod ax_p a) with 0 by (replace (ax_p a * e + ax_p a) with ((e+1) * ax_p a) by ring; rewrite Z.mod_mul; lia).
    rewrite Hnel. destruct (e + 1 =? bq_nel B) eqn:E.
    + replace (e+1-1) with e by lia. rewrite SP. fold k. unfold lobatto_points. rewrite T2. field.
    + destruct (CT e ltac:(lia)) as (_ & CU & _). cbv zeta in CU. fold k in CU. rewrite SP. unfold lobatto_points. rewrite T2. change (Z.to_nat 0) with 0%nat.
      rewrite T3, T4, CU. field.
  - replace ((ax_p a * e + i) / ax_p a) with e by (apply (Z.div_unique_pos _ _ _ i); lia).
    replace ((ax_p a * e + i) mod ax_p a) with i by (apply (Z.mod_unique_pos _ _ e); lia).
    rewrite Hnel. replace (e =? bq_nel B) with false by lia. rewrite SP. fold k. unfold lobatto_points. rewrite T2. field.
Qed.
Print Assumptions C44_spectral_points.

(** With a geometry ([xyz] holds nsd coordinates per node of the ghosted box): what is stored for an owned node. *)
Lemma geometry_entry {O : KnotOrd} g2 g3 maxint size dim (axes : Z -> axis O) user LY dof : setup_ok g2 g3 maxint size dim axes user LY -> 1 <= dof ->
  let G r := grid_of dof (ly_node (LY r)) in
  forall T nsd (xyz : Z -> T) r, 0 <= r < size -> 1 <= nsd ->
  Z.of_nat (length (coords_geometry nsd (G r) xyz)) = nsd * nlocal (G r) /\
  forall t c d, in_box (gr_lstart (G r)) (gr_lwidth (G r)) t -> 0 <= c < nsd ->
    let b := ao size G (lin (node_size dim axes) t) in
    nth (Z.to_nat (nsd * (b - off G r) + c)) (coords_geometry nsd (G r) xyz) d = xyz (lin (gr_gwidth (G r)) (tsub (gr_gstart (G r)) t) + c).
Proof.
  intros S Hdof G T nsd xyz r Hr Hn.
  pose proof (setup_world _ _ _ _ _ _ _ _ S dof Hdof) as W. fold G in W.
  pose proof (setup_sub _ _ _ _ _ _ _ _ S dof r Hr) as HS. cbv zeta in HS. change (grid_of dof (ly_node (LY r))) with (G r) in HS.
  rewrite coords_geometry_eq by exact HS. split.
  - rewrite length_flat_map_const with (n := Z.to_nat nsd) by (intros; rewrite map_length, length_zseq; auto).
    rewrite Nat2Z.inj_mul. unfold nlocal. rewrite <- len_box3 with (s := gr_lstart (G r)); [lia|].
    intros d Hd. pose proof (setup_sizes _ _ _ _ _ _ _ _ S dof r Hr ltac:(lia) d Hd). cbn [G grid_of gr_lwidth] in *. lia.
  - intros [[i j] k] c d Hin Hc b. destruct (own_block _ _ _ _ W r i j k Hr Hin) as [E _]. unfold b. rewrite E. unfold in_box in Hin.
    match goal with |- nth (Z.to_nat (nsd * ?x + c)) _ _ = _ => replace x with (lin (gr_lwidth (G r)) (i - gr_lstart (G r) 0, j - gr_lstart (G r) 1, k - gr_lstart (G r) 2)) by lia end.
    rewrite (nth_blocks nsd (fun t c => xyz (lin (gr_gwidth (G r)) (tsub (gr_gstart (G r)) t) + c))) by lia.
    replace (gr_lstart (G r) 0 + (i - gr_lstart (G r) 0)) with i by lia.
    replace (gr_lstart (G r) 1 + (j - gr_lstart (G r) 1)) with j by lia.
    replace (gr_lstart (G r) 2 + (k - gr_lstart (G r) 2)) with k by lia. reflexivity.
Qed.

(** In one space dimension it is the node's control point. *)
Theorem C44_geometry_one_dimension_partial :
  forall {O : KnotOrd} g2 g3 maxint size dim (axes : Z -> axis O) user LY dof, setup_ok g2 g3 maxint size dim axes user LY -> 1 <= dof ->
  let G r := grid_of dof (ly_node (LY r)) in
  forall T (X : triple -> T) (xyz : Z -> T) r, 0 <= r < size ->
  (forall t, in_box (gr_gstart (G r)) (gr_gwidth (G r)) t -> xyz (lin (gr_gwidth (G r)) (tsub (gr_gstart (G r)) t)) = X t) ->
  forall t d, in_box (gr_lstart (G r)) (gr_lwidth (G r)) t ->
    nth (Z.to_nat (ao size G (lin (node_size dim axes) t) - off G r)) (coords_geometry 1 (G r) xyz) d = X t.
Proof.
  intros O g2 g3 maxint size dim axes user LY dof S Hdof G T X xyz r Hr HX t d Ht.
  destruct (geometry_entry g2 g3 maxint size dim axes user LY dof S Hdof T 1 xyz r Hr ltac:(lia)) as [_ E].
  specialize (E t 0 d Ht ltac:(lia)). cbv zeta in E. change (fun r => grid_of dof (ly_node (LY r))) with G in E. change (grid_of dof (ly_node (LY r))) with (G r) in E.
  replace (1 * (ao size G (lin (node_size dim axes) t) - off G r) + 0) with (ao size G (lin (node_size dim axes) t) - off G r) in E by lia.
  rewrite E, Z.add_0_r. apply HX.
  pose proof (setup_sub _ _ _ _ _ _ _ _ S dof r Hr) as HS. cbv zeta in HS. change (grid_of dof (ly_node (LY r))) with (G r) in HS.
  destruct t as [[i j] k]. unfold in_box in *. pose proof (HS 0 ltac:(lia)). pose proof (HS 1 ltac:(lia)). pose proof (HS 2 ltac:(lia)). lia.
Qed.
Print Assumptions C44_geometry_one_dimension_partial.

(** In two and three dimensions it is not: coordinate c of a node with index q > 0 in the ghosted box is read
    (nsd-1)*q entries too early. *)
Theorem C44_geometry_offset_wrong :
  forall {O : KnotOrd} g2 g3 maxint size dim (axes : Z -> axis O) user LY dof, setup_ok g2 g3 maxint size dim axes user LY -> 1 <= dof ->
  let G r := grid_of dof (ly_node (LY r)) in
  forall nsd r t c d, 0 <= r < size -> 2 <= nsd -> in_box (gr_lstart (G r)) (gr_lwidth (G r)) t -> 0 <= c < nsd ->
  let q := lin (gr_gwidth (G r)) (tsub (gr_gstart (G r)) t) in
  (* the array holds its own indices *)
  nth (Z.to_nat (nsd * (ao size G (lin (node_size dim axes) t) - off G r) + c)) (coords_geometry nsd (G r) (fun x => x)) d
  = (nsd * q + c) - (nsd - 1) * q.
Proof.
  intros O g2 g3 maxint size dim axes user LY dof S Hdof G nsd r t c d Hr Hn Ht Hc q.
  destruct (geometry_entry g2 g3 maxint size dim axes user LY dof S Hdof Z nsd (fun x => x) r Hr ltac:(lia)) as [_ E].
  specialize (E t c d Ht Hc). cbv zeta in E. change (fun r => grid_of dof (ly_node (LY r))) with G in E. change (grid_of dof (ly_node (LY r))) with (G r) in E.
  rewrite E. fold q. ring.
Qed.
Print Assumptions C44_geometry_offset_wrong.

Theorem C44_geometry_refuted :
  exists size dim (axes : Z -> axis Zord) user LY dof nsd r t c, setup_ok exact_g2 exact_g3 (2^31-1) size dim axes user LY /\
  let G r := grid_of dof (ly_node (LY r)) in
  0 <= r < size /\ in_box (gr_lstart (G r)) (gr_lwidth (G r)) t /\ 0 <= c < nsd /\ 
  exists xyz : Z -> Z, forall d,
  nth (Z.to_nat (nsd * (ao size G (lin (node_size dim axes) t) - off G r) + c)) (coords_geometry nsd (G r) xyz) d <>
  xyz (lin (gr_gwidth (G r)) (tsub (gr_gstart (G r)) t) * nsd + c).
Proof.
  exists 6, 2, ex_axes, [-1;-1], ex_LY, 2, 2, 5, (7,3,0), 0. split; [exact ex_setup_ok|].
  intros G. split; [lia|]. split; [vm_compute; repeat split; discriminate|]. split; [lia|]. exists (fun x => x). intros d.
  pose proof (C44_geometry_offset_wrong exact_g2 exact_g3 (2^31-1) 6 2 ex_axes [-1;-1] ex_LY 2 ex_setup_ok ltac:(lia) 2 5 (7,3,0) 0 d ltac:(lia) ltac:(lia)
    ltac:(vm_compute; repeat split; discriminate) ltac:(lia)) as E. cbv zeta in E.
  unfold G. rewrite E. vm_compute. discriminate.
Qed.
Print Assumptions C44_geometry_refuted.

(** Non-trivial cases: on rank 4 of the example the points are stored for its 12 nodes; quadratic Greville points and
    Lagrange nodes on the knots 0,0,0,1,1,2,2,2. *)
Example C44_example :
  setup_ok exact_g2 exact_g3 (2^31-1) 6 2 ex_axes [-1;-1] ex_LY /\
  length (coords_points 2 (ex_G 4) (fun c i => (c, i))) = 24%nat /\
  nth (Z.to_nat (2 * (ao 6 ex_G (lin (node_size 2 ex_axes) (4,5,0)) - off ex_G 4) + 1)) (coords_points 2 (ex_G 4) (fun c i => (c, i))) (9,9) = (1, 5).
Proof. split; [exact ex_setup_ok|]. vm_compute. repeat split. Qed.
Example C44_points_example : forall lit maxreal,
  let a := mk_axis (O:=Rord) false 2 7 c0_knots 5 2 (Some [2; 4]) in
  map (fun i => compute_point lit maxreal false i a) [0;1;2;3;4] = [0; 1/2; 1; 3/2; 2]%R.
Proof.
  intros lit maxreal a. unfold a, compute_point. cbn [map ax_p ax_U]. change (2 =? 0) with false. cbv iota. unfold greville. change (0 <? 2) with true. cbv iota.
  change (zseq 0 2) with [0;1]. cbn [fold_left]. unfold c0_knots. cbv -[Rplus Rmult Rdiv Rinv IZR R]. repeat f_equal; field.
Qed.

(** * C45 *)
(** DMCreateSubDM: on every rank the index set consists of the given fields of the nodes the rank owns. *)
Theorem C45_subfields :
  forall {O : KnotOrd} g2 g3 maxint size dim (axes : Z -> axis O) user LY dof, setup_ok g2 g3 maxint size dim axes user LY -> 1 <= dof ->
  let G r := grid_of dof (ly_node (LY r)) in
  forall r fields, 0 <= r < size -> NoDup fields -> (forall f, In f fields -> 0 <= f < dof) ->
  let is := sub_is dof (dof * off G r) (dof * off G (r+1)) fields in
  NoDup is /\
  forall x, In x is <-> exists t f, in_box (gr_lstart (G r)) (gr_lwidth (G r)) t /\ In f fields /\ x = dof * ao size G (lin (node_size dim axes) t) + f.
Proof.
  intros O g2 g3 maxint size dim axes user LY dof S Hdof G r fields Hr Hnd Hf is.
  pose proof (setup_world _ _ _ _ _ _ _ _ S dof Hdof) as W. fold G in W.
  assert (DV : forall x, dof * x / dof = x) by (intros; rewrite Z.mul_comm; apply Z.div_mul; lia).
  unfold is, sub_is. rewrite !DV. rewrite off_S by lia. replace (off G r + nlocal (G r) - off G r) with (nlocal (G r)) by lia. split.
  - apply NoDup_flat_map; [apply NoDup_zseq| |].
    + intros b _. apply NoDup_map_inj; auto. intros; lia.
    + intros b b' x _ _ Hx Hx'. apply in_map_iff in Hx, Hx'. destruct Hx as (f & <- & F). destruct Hx' as (f' & E & F'). apply Hf in F, F'.
      destruct (block_inj dof b b' f f') as [K _]; auto. lia.
  - intros x. rewrite in_flat_map. split.
    + intros (b & Hb & Hx). apply in_zseq in Hb. apply in_map_iff in Hx. destruct Hx as (f & <- & F).
      destruct (ao_local _ _ _ _ W r (b - off G r) 0 Hr ltac:(lia)) as [E _].
      assert (HI : In (nth (Z.to_nat (b - off G r)) (local_indices (G r)) 0) (local_indices (G r))).
      { apply nth_In. pose proof (len_local _ _ _ _ W r Hr). lia. }
      unfold local_indices in HI at 2. apply in_map_iff in HI. destruct HI as (t & Et & Ht). apply In_box in Ht. exists t, f. split; [exact Ht|]. split; auto.
      rewrite (w_lin _ _ _ _ W) in Et by auto. rewrite Et, E. lia.
    + intros ([[i j] k] & f & Ht & F & ->). destruct (own_block _ _ _ _ W r i j k Hr Ht) as [_ OB]. rewrite off_S in OB by lia.
      exists (ao size G (lin (node_size dim axes) (i,j,k))). split; [apply in_zseq; lia|]. apply in_map_iff. exists f. split; [lia|auto].
Qed.
Print Assumptions C45_subfields.

(** DMCreateFieldIS: right on the first rank or with one field ... *)
Theorem C45_field_first_rank_partial :
  forall {O : KnotOrd} g2 g3 maxint size dim (axes : Z -> axis O) user LY dof, setup_ok g2 g3 maxint size dim axes user LY -> 1 <= dof ->
  let G r := grid_of dof (ly_node (LY r)) in
  forall r i, 0 <= r < size -> 0 <= i < dof -> (r = 0 \/ dof = 1) ->
  forall x, In x (field_is dof (dof * off G r) (dof * off G (r+1)) i) <->
    exists t, in_box (gr_lstart (G r)) (gr_lwidth (G r)) t /\ x = dof * ao size G (lin (node_size dim axes) t) + i.
Proof.
  intros O g2 g3 maxint size dim axes user LY dof S Hdof G r i Hr Hi HC x.
  destruct (C45_subfields g2 g3 maxint size dim axes user LY dof S Hdof r [i] Hr) as [_ E].
  { constructor; [intros []|constructor]. } { intros f [<-|[]]; auto. }
  specialize (E x). cbv zeta in E. change (fun r => grid_of dof (ly_node (LY r))) with G in E. change (grid_of dof (ly_node (LY r))) with (G r) in E.
  assert (DV : forall x, dof * x / dof = x) by (intros; rewrite Z.mul_comm; apply Z.div_mul; lia).
  assert (EQ : In x (field_is dof (dof * off G r) (dof * off G (r+1)) i) <-> In x (sub_is dof (dof * off G r) (dof * off G (r+1)) [i])).
  { unfold field_is, sub_is, is_stride. rewrite !DV. rewrite in_flat_map, in_map_iff. assert (O0 : r = 0 -> off G r = 0) by (intros ->; apply off_0). split.
    - intros (k & <- & Hk). apply in_zseq in Hk. exists (off G r + k). split; [apply in_zseq; lia|]. left. destruct HC as [-> | ->]; [rewrite O0 by auto|]; lia.
    - intros (b & Hb & [<- | []]). apply in_zseq in Hb. exists (b - off G r). split; [destruct HC as [-> | ->]; [rewrite O0 by auto|]; lia|apply in_zseq; lia]. }
  rewrite EQ, E. split.
  - intros (t & f & Ht & [<- | []] & Ex). exists t; auto.
  - intros (t & Ht & Ex). exists t, i. split; auto. split; [left; auto|auto].
Qed.
Print Assumptions C45_field_first_rank_partial.

(** ... and wrong on every other rank when there are several fields: its first index belongs to no owned node's
    field i. *)
Theorem C45_field_other_ranks_wrong :
  forall {O : KnotOrd} g2 g3 maxint size dim (axes : Z -> axis O) user LY dof, setup_ok g2 g3 maxint size dim axes user LY -> 2 <= dof ->
  let G r := grid_of dof (ly_node (LY r)) in
  forall r i, 1 <= r < size -> 0 <= i < dof ->
  exists x, In x (field_is dof (dof * off G r) (dof * off G (r+1)) i) /\
    ~ exists t, in_box (gr_lstart (G r)) (gr_lwidth (G r)) t /\ x = dof * ao size G (lin (node_size dim axes) t) + i.
Proof.
  intros O g2 g3 maxint size dim axes user LY dof S Hdof G r i Hr Hi.
  pose proof (setup_world _ _ _ _ _ _ _ _ S dof ltac:(lia)) as W. fold G in W.
  assert (DV : forall x, dof * x / dof = x) by (intros; rewrite Z.mul_comm; apply Z.div_mul; lia).
  assert (NL : forall r, 0 <= r < size -> 1 <= nlocal (G r)).
  { intros q Hq. unfold nlocal, vol. pose proof (setup_sizes _ _ _ _ _ _ _ _ S dof q Hq ltac:(lia)) as K. cbv zeta in K. change (grid_of dof (ly_node (LY q))) with (G q) in K.
    pose proof (K 0 ltac:(lia)). pose proof (K 1 ltac:(lia)). pose proof (K 2 ltac:(lia)).
    revert H H0 H1. generalize (gr_lwidth (G q) 0) (gr_lwidth (G q) 1) (gr_lwidth (G q) 2). clear. intros a b c Ha Hb Hc. assert (1 <= a * b) by nia. nia. }
  assert (OP : 1 <= off G r).
  { pose proof (off_le _ _ _ _ W 1 r ltac:(lia) ltac:(lia)). pose proof (off_S G 0 ltac:(lia)) as O1. rewrite off_0 in O1. pose proof (NL 0 ltac:(lia)). change (0+1) with 1 in O1. lia. }
  exists (off G r + i). split.
  - unfold field_is, is_stride. rewrite !DV. apply in_map_iff. exists 0. split; [lia|]. apply in_zseq. rewrite off_S by lia. pose proof (NL r ltac:(lia)). lia.
  - intros ([[a b] c] & Ht & E). destruct (own_block _ _ _ _ W r a b c ltac:(lia) Ht) as [_ OB].
    revert E OB OP. generalize (ao size G (lin (node_size dim axes) (a,b,c))) (off G r). clear - Hdof. intros A o E OB OP. nia.
Qed.
Print Assumptions C45_field_other_ranks_wrong.

Theorem C45_field_refuted :
  exists size dim (axes : Z -> axis Zord) user LY dof r i, setup_ok exact_g2 exact_g3 (2^31-1) size dim axes user LY /\
  let G r := grid_of dof (ly_node (LY r)) in
  0 <= r < size /\ 0 <= i < dof /\
  (* the index belongs to another rank *)
  exists x, In x (field_is dof (dof * off G r) (dof * off G (r+1)) i) /\ ~ (dof * off G r <= x < dof * off G (r+1)).
Proof.
  exists 6, 2, ex_axes, [-1;-1], ex_LY, 2, 1, 0. split; [exact ex_setup_ok|]. intros G. split; [lia|]. split; [lia|].
  exists 9. split; [vm_compute; left; reflexivity|]. vm_compute. intros [H _]. apply H. reflexivity.
Qed.
Print Assumptions C45_field_refuted.

Example C45_example :
  (* rank 1 of 6 owns the blocks 9..17; sub_is takes field 1 of them *)
  (off ex_G 1, off ex_G 2) = (9, 18) /\ sub_is 2 18 36 [1] = [19;21;23;25;27;29;31;33;35] /\ field_is 2 18 36 1 = [10;12;14;16;18;20;22;24;26].
Proof. vm_compute. repeat split. Qed.

(** * C46 *)
Lemma last_range {O : KnotOrd} (a : axis O) l P c : wf a l -> ends_nonempty (ax_p a) (ax_m a) (ax_U a) -> 1 <= P <= ax_nel a -> 0 <= c < P ->
  ax_nnp a <= r_lstart (nrange P a c) + r_lwidth (nrange P a c) ->
  r_lstart (nrange P a c) + r_gwidth (nrange P a c) = ax_m a - ax_p a.
Proof.
  intros Hwf He HP Hc Hlast. destruct (node_tiles a l P Hwf He HP) as (T & T1 & _).
  assert (c = P - 1).
  { destruct (Z.eq_dec c (P-1)); auto. exfalso. pose proof (tiles_mono _ _ _ _ T c (P-1) ltac:(lia) ltac:(lia) ltac:(lia)) as M. cbv beta in M.
    destruct T as (_ & _ & _ & _ & TE). cbv beta in TE. pose proof (T1 (P-1) ltac:(lia)). lia. }
  destruct (elem_block P a c HP Hc) as (_ & _ & _ & _ & B5 & _). specialize (B5 H). destruct (wf_ends a l Hwf He) as (_ & _ & HL).
  unfold nrange, node_range, geom_range; cbn [r_lstart r_gwidth]. rewrite B5. lia.
Qed.

Lemma setup_last {O : KnotOrd} g2 g3 maxint size dim (axes : Z -> axis O) user LY : setup_ok g2 g3 maxint size dim axes user LY ->
  forall r d, 0 <= r < size -> 0 <= d < dim -> node_size dim axes d <= r_lstart (ly_node (LY r) d) + r_lwidth (ly_node (LY r) d) ->
  r_lstart (ly_node (LY r) d) + r_gwidth (ly_node (LY r) d) = geom_size dim axes d.
Proof.
  intros S r d Hr Hd. destruct (setup_form _ _ _ _ _ _ _ _ S) as (n & Hn & HL & Hdim & Hz & HP & HLY).
  destruct (setup_wf _ _ _ _ _ _ _ _ S d Hd) as (l & L & He). rewrite (HLY r Hr). unfold layout_of; cbn [ly_node]. unfold node_size, geom_size.
  replace (d <? dim) with true by lia. pose proof (pad_coords n r d Hn ltac:(lia) ltac:(lia)) as Hc. specialize (HP d ltac:(lia)).
  intros H. exact (last_range (axes d) l (pad 1 n d) (pad 0 (rank_coords n r) d) L He HP Hc H).
Qed.

Section BbbProps.
  Context {O : KnotOrd}.
  Variables (g2 : Z -> Z -> Z -> Z) (g3 : Z -> Z -> Z -> Z -> Z) (maxint size dim : Z) (axes : Z -> axis O) (user : list Z) (LY : Z -> layout) (dof : Z).
  Hypothesis S : setup_ok g2 g3 maxint size dim axes user LY.
  Hypothesis Hdof : 1 <= dof.
  Variable req : Z -> Z.
  Let ov d := bbb_overlap (ax_p (axes d)) (req d).

  Lemma bbb_hyps : grid_world size dof (node_size dim axes) (fun r => grid_of dof (ly_node (LY r))) /\
    (forall r d, 0 <= r < size -> 0 <= d < 3 ->
      0 <= r_gstart (ly_node (LY r) d) <= r_lstart (ly_node (LY r) d) /\
      r_lstart (ly_node (LY r) d) + r_lwidth (ly_node (LY r) d) <= r_gstart (ly_node (LY r) d) + r_gwidth (ly_node (LY r) d) /\
      (dim <= d -> r_lstart (ly_node (LY r) d) = 0 /\ r_lwidth (ly_node (LY r) d) = 1)) /\
    (forall d, 0 <= d < dim -> 0 <= ov d <= ax_p (axes d)) /\ 1 <= dim <= 3.
  Proof.
    split; [apply (setup_world _ _ _ _ _ _ _ _ S dof Hdof)|]. split; [|split].
    - intros r d Hr Hd. pose proof (setup_node_facts _ _ _ _ _ _ _ _ S r d Hr Hd) as F. split; [lia|]. split; [lia|].
      intros Hge. destruct (setup_node_tile _ _ _ _ _ _ _ _ S) as [T _]. specialize (T r Hr d Hd). unfold zero3, node_size in T. replace (d <? dim) with false in T by lia. lia.
    - intros d Hd. destruct (setup_wf _ _ _ _ _ _ _ _ S d Hd) as (l & (_ & (Hp & _) & _) & _). unfold ov, bbb_overlap.
      destruct (req d <? 0) eqn:E; [|lia]. split; [apply Z.div_pos; lia|apply Z.div_le_upper_bound; lia].
    - destruct (setup_form _ _ _ _ _ _ _ _ S) as (n & _ & _ & H & _). exact H.
  Qed.
End BbbProps.

(** Exactly which owned nodes are in some block of their process: all but, on the last process of a direction that does
    not start within the overlap of the first node, the last nodes of that direction. *)
Theorem C46_blocks_cover_partial :
  forall {O : KnotOrd} g2 g3 maxint size dim (axes : Z -> axis O) user LY dof, setup_ok g2 g3 maxint size dim axes user LY -> 1 <= dof ->
  let G r := grid_of dof (ly_node (LY r)) in
  forall req r t c, let ov d := bbb_overlap (ax_p (axes d)) (req d) in
  0 <= r < size -> 0 <= c < dof -> in_box (gr_lstart (G r)) (gr_lwidth (G r)) t ->
  ((exists t', in_box (gr_lstart (G r)) (gr_lwidth (G r)) t' /\
      In (dof * ao size G (lin (node_size dim axes) t) + c) (bbb_block size G dim dof ov (fun r => ly_node (LY r)) r t')) <->
   forall d, 0 <= d < dim -> let x := (let '(i,j,k) := t in if d =? 0 then i else if d =? 1 then j else k) in
     ov d = 0 \/ gr_lstart (G r) d < ov d \/ gr_lstart (G r) d + gr_lwidth (G r) d < node_size dim axes d \/ x < geom_size dim axes d - ov d).
Proof.
  intros O g2 g3 maxint size dim axes user LY dof S Hdof G req r t c ov Hr Hc Ht.
  destruct (bbb_hyps g2 g3 maxint size dim axes user LY dof S Hdof req) as (W & H1 & H2 & H3). fold ov in H2.
  unfold G. rewrite (cover_iff size dof dim (node_size dim axes) (fun r => ly_node (LY r)) ov W H1 (fun d Hd => proj1 (H2 d Hd)) H3 r Hr t c Hc Ht).
  assert (K : forall d, 0 <= d < dim -> (~ missed (fun r => ly_node (LY r)) ov r t d <->
     (let x := (let '(i,j,k) := t in if d =? 0 then i else if d =? 1 then j else k) in
     ov d = 0 \/ gr_lstart (G r) d < ov d \/ gr_lstart (G r) d + gr_lwidth (G r) d < node_size dim axes d \/ x < geom_size dim axes d - ov d))).
  { intros d Hd. pose proof (setup_last g2 g3 maxint size dim axes user LY S r d Hr Hd) as L.
    pose proof (setup_node_facts _ _ _ _ _ _ _ _ S r d Hr ltac:(lia)) as (F1 & _). assert (H2d : 0 <= ov d) by (apply (H2 d Hd)).
    unfold missed. cbv beta zeta. change (let '(i,j,k) := t in if d =? 0 then i else if d =? 1 then j else k) with (coord_of t d).
    cbn [G grid_of gr_lstart gr_lwidth]. rewrite F1. clear - L H2d. revert L H2d.
    generalize (r_lstart (ly_node (LY r) d)) (r_lwidth (ly_node (LY r) d)) (r_gwidth (ly_node (LY r) d)) (node_size dim axes d) (geom_size dim axes d) (coord_of t d) (ov d).
    intros ls lw gw n g x o L H2. split; [intros H; lia|]. intros [H|[H|[H|H]]] HM; lia. }
  split; intros H d Hd; apply (K d Hd), H; auto.
Qed.
Print Assumptions C46_blocks_cover_partial.

(** One process: every owned node is covered. *)
Theorem C46_single_process :
  forall {O : KnotOrd} g2 g3 maxint dim (axes : Z -> axis O) user LY dof, setup_ok g2 g3 maxint 1 dim axes user LY -> 1 <= dof ->
  let G r := grid_of dof (ly_node (LY r)) in
  forall req t c, let ov d := bbb_overlap (ax_p (axes d)) (req d) in
  0 <= c < dof -> in_box (gr_lstart (G 0)) (gr_lwidth (G 0)) t ->
  exists t', in_box (gr_lstart (G 0)) (gr_lwidth (G 0)) t' /\
      In (dof * ao 1 G (lin (node_size dim axes) t) + c) (bbb_block 1 G dim dof ov (fun r => ly_node (LY r)) 0 t').
Proof.
  intros O g2 g3 maxint dim axes user LY dof S Hdof G req t c ov Hc Ht.
  apply (C46_blocks_cover_partial g2 g3 maxint 1 dim axes user LY dof S Hdof req 0 t c ltac:(lia) Hc Ht).
  intros d Hd x. destruct (bbb_hyps g2 g3 maxint 1 dim axes user LY dof S Hdof req) as (W & H1 & H2 & H3). assert (H2d : 0 <= ov d) by (apply (H2 d Hd)).
  assert (L0 : gr_lstart (G 0) d = 0).
  { destruct (setup_form _ _ _ _ _ _ _ _ S) as (n & Hn & HL & Hdim & Hz & HP & HLY).
    pose proof (pad_coords n 0 d Hn ltac:(lia) ltac:(lia)) as Hcd. pose proof (HP d Hd) as HPd.
    assert (P1 : pad 1 n d = 1).
    { assert (HA : forall n, Forall (fun a => 1 <= a) n -> zprod n = 1 -> forall a, In a n -> a = 1).
      { induction n0 as [|a n0 IH]; intros HF Hp b Hb; [destruct Hb|]. inversion HF; subst. cbn in Hp. fold (zprod n0) in Hp.
        assert (1 <= zprod n0). { clear - H5. induction n0; cbn; [lia|]. inversion H5; subst. specialize (IHn0 H2). fold (zprod n0). nia. }
        destruct Hb as [<-|Hb]; [nia|]. apply IH; auto. nia. }
      unfold pad. destruct (nth_in_or_default (Z.to_nat d) n 1) as [I|I]; auto. apply (HA n Hn Hz). exact I. }
    destruct (setup_wf _ _ _ _ _ _ _ _ S d Hd) as (l & L & He). destruct (node_tiles (axes d) l (pad 1 n d) L He HPd) as ((_ & T0 & _) & _).
    cbn [G grid_of gr_lstart]. rewrite (HLY 0 ltac:(lia)). unfold layout_of; cbn [ly_node]. replace (d <? dim) with true by lia.
    replace (pad 0 (rank_coords n 0) d) with 0 by lia. exact T0. }
  change (ov d = 0 \/ gr_lstart (G 0) d < ov d \/ gr_lstart (G 0) d + gr_lwidth (G 0) d < node_size dim axes d \/ x < geom_size dim axes d - ov d).
  rewrite L0. revert H2d. generalize (ov d). clear. intros o Ho. lia.
Qed.
Print Assumptions C46_single_process.

(** A block holds only entries of its process, fits the buffers, and has no repetition when the grid is larger than the
    stencil of the block. *)
Theorem C46_blocks_fit :
  forall {O : KnotOrd} g2 g3 maxint size dim (axes : Z -> axis O) user LY dof, setup_ok g2 g3 maxint size dim axes user LY -> 1 <= dof ->
  let G r := grid_of dof (ly_node (LY r)) in
  forall req r t, let ov d := bbb_overlap (ax_p (axes d)) (req d) in
  0 <= r < size ->
  let l := bbb_block size G dim dof ov (fun r => ly_node (LY r)) r t in
  (forall x, In x l -> dof * off G r <= x < dof * off G (r+1)) /\
  Z.of_nat (length l) <= bbb_capacity dim dof ov /\
  ((forall d, 0 <= d < dim -> 2 * ov d < node_size dim axes d) -> NoDup l).
Proof.
  intros O g2 g3 maxint size dim axes user LY dof S Hdof G req r t ov Hr l.
  destruct (bbb_hyps g2 g3 maxint size dim axes user LY dof S Hdof req) as (W & H1 & H2 & H3). fold ov in H2.
  pose proof (fun d Hd => proj1 (H2 d Hd)) as H2'. split; [|split].
  - intros x Hx. apply (block_owned size dof dim (node_size dim axes) (fun r => ly_node (LY r)) ov W H1 H2' H3 r Hr t x Hx).
  - apply (block_length size dof dim (node_size dim axes) (fun r => ly_node (LY r)) ov W H1 H2' H3 r Hr t).
  - intros HN. apply (block_nodup size dof dim (node_size dim axes) (fun r => ly_node (LY r)) ov W H1 H2' H3 r Hr t HN).
Qed.
Print Assumptions C46_blocks_fit.

(** Two processes in direction 1, default overlap p/2 = 1: rank 5 owns nodes (6..7, 3..6); node (7,6) is in no block, so
    the rows of that node in the preconditioner stay empty. *)
Theorem C46_blocks_cover_refuted :
  exists size dim (axes : Z -> axis Zord) user LY dof req r t c, setup_ok exact_g2 exact_g3 (2^31-1) size dim axes user LY /\
  let G r := grid_of dof (ly_node (LY r)) in let ov d := bbb_overlap (ax_p (axes d)) (req d) in
  0 <= r < size /\ 0 <= c < dof /\ in_box (gr_lstart (G r)) (gr_lwidth (G r)) t /\
  forall t', in_box (gr_lstart (G r)) (gr_lwidth (G r)) t' ->
    ~ In (dof * ao size G (lin (node_size dim axes) t) + c) (bbb_block size G dim dof ov (fun r => ly_node (LY r)) r t').
Proof.
  exists 6, 2, ex_axes, [-1;-1], ex_LY, 2, (fun _ => -1), 5, (7,6,0), 0. split; [exact ex_setup_ok|]. intros G ov. split; [lia|]. split; [lia|].
  assert (HI : in_box (gr_lstart (G 5)) (gr_lwidth (G 5)) (7,6,0)) by (vm_compute; repeat split; discriminate).
  split; [exact HI|]. intros t' Ht' HIn.
  pose proof (proj1 (C46_blocks_cover_partial exact_g2 exact_g3 (2^31-1) 6 2 ex_axes [-1;-1] ex_LY 2 ex_setup_ok ltac:(lia) (fun _ => -1) 5 (7,6,0) 0 ltac:(lia) ltac:(lia) HI)
    (ex_intro _ t' (conj Ht' HIn)) 1 ltac:(lia)) as K. cbv zeta in K. vm_compute in K.
  destruct K as [K|[K|[K|K]]]; discriminate K.
Qed.
Print Assumptions C46_blocks_cover_refuted.

Example C46_example :
  let ov d := bbb_overlap (ax_p (ex_axes d)) (-1) in
  (ov 0, ov 1) = (1, 1) /\
  (* the block of node (1,1) on rank 0 *)
  bbb_block 6 ex_G 2 1 ov (fun r => ly_node (ex_LY r)) 0 (1,1,0) = [0;3;6;1;4;7;2;5;8].
Proof. vm_compute. repeat split. Qed.
