(** C99-C101: limits and examples. *)
From Coq Require Import ZArith List Bool Lia Reals Lra Permutation.
From Flocq Require Import Core.
From Coq Require Import ZifyBool ZifyNat.
From Verif Require Import Prelude RealOrd AxisModel AxisSpec AxisInitModel AxisProofs PartModel PartSpec PartProofs SetupModel SetupProofs SetupProps GridModel GridSpec GridProofs GridSetup GridProps
  ElemModel ElemProofs AsmProofs ElemProps BasModel BasSpec BasProps BCModel BCSpec BCProofs BCProofs2 BCProps DrvModel DrvSpec DrvProofs DrvProofs2 DrvProofs3 RuleModel RuleSpec RuleProps DrvProps IOProps MapModel MapSpec MapProofs
  TabModel TabSpec TabProofs TabProofs2 TabProofs3 TabProofs4 TabProofs5 TabProofs6 TabProofs7 PcSpec PcProofs TabProps.
From Verif Require Import ElemSpec Box.
Import ListNotations.
Open Scope Z_scope.


(** ** Limits *)
Definition bs_CB (_ : Z) (k : Z) (v : R) (p d : Z) (U : Z -> R) : Z -> Z -> R :=
  basis_bspline k v p d U (fun _ _ => 0%R) (fun _ _ => 0%R) (fun _ _ => 0%R) (fun _ => 0%R) (fun _ => 0%R).
Definition no_table : btable := mk_btable (mk_basis_q 0 0 0 (fun _ => 0) (fun _ => 0%R) (fun _ => []) (fun _ => [])) (fun _ _ _ _ => 0%R) (fun _ => 0%R) (fun _ _ _ => 0%R).
(** Direction i of a problem in one dimension on an axis a with rule r. *)
Definition ex_basis (lit : Z -> R) (a : axis Rord) (N0 : Z -> Z -> Z -> Z -> R) (r : rule) (i : Z) :=
  setup_basis lit 9 (bs_CB i) 1 i true (ax_p a) (ax_m a) (ax_U a) (spans_of a) N0 r.
Definition ex_BT lit a N0 r (i : Z) : btable := match snd (ex_basis lit a N0 r i) with Some T => T | None => no_table end.
Definition ex_r' lit a N0 r (i : Z) : rule := snd (fst (ex_basis lit a N0 r i)).

Lemma ex_unit lit a N0 r i : 1 <= i < 3 -> ex_basis lit a N0 r i = (Ok, ex_r' lit a N0 r i, Some (ex_BT lit a N0 r i)).
Proof. intros Hi. unfold ex_BT, ex_r', ex_basis, setup_basis. replace (i <? 1) with false by lia. reflexivity. Qed.
Lemma ex_unit_size lit a N0 r i : rounds lit -> 1 <= i < 3 -> quad_size (ex_BT lit a N0 r i) 0 = 1.
Proof.
  intros HL Hi. pose proof (ex_unit lit a N0 r i Hi) as E. unfold ex_basis, setup_basis in E. replace (i <? 1) with false in E by lia.
  exact (unit_facts lit HL _ _ _ _ _ _ E).
Qed.

(** A user rule with a zero weight before a positive one: the functions are evaluated only before the first zero weight,
    the points up to the last positive weight are used, and there the tables hold what the memory held. *)
Theorem C99_weights_order_refuted : exists r, ru_type r = RUser /\ ru_point r = Some [-1; 0; 1]%R /\ ru_weight r = Some [1; 0; 1]%R /\ ru_nqp r = 3 /\
  forall lit v, rounds lit -> exists N0, (forall i, 0 <= i < 3 -> ex_basis lit (per_axes 0) N0 r i = (Ok, ex_r' lit (per_axes 0) N0 r i, Some (ex_BT lit (per_axes 0) N0 r i))) /\
  let BT := ex_BT lit (per_axes 0) N0 r in
  tab_count BT (0, 0, 0) Interior = Some 3 /\ tab_weight 1 BT (0, 0, 0) Interior 2 = 1%R /\ tab_rows 1 BT (0, 0, 0) Interior 2 1 0 1 = v.
Proof.
  exists (mk_rule RUser 3 (Some [-1; 0; 1]%R) (Some [1; 0; 1]%R)). repeat (split; [reflexivity|]).
  intros lit v HL. exists (fun _ _ _ _ => v). split; [|split; [|split]].
  - intros i Hi. destruct (Z.eq_dec i 0) as [ -> |D]; [reflexivity|apply ex_unit; lia].
  - unfold tab_count, coord. zc. rewrite (ex_unit_size lit _ _ _ 1), (ex_unit_size lit _ _ _ 2) by (auto; lia).
    assert (E : forall N0, quad_size (ex_BT lit (per_axes 0) N0 (mk_rule RUser 3 (Some [-1; 0; 1]%R) (Some [1; 0; 1]%R)) 0) 0 = 3).
    { intros N0. unfold quad_size. cbn [ex_BT ex_basis setup_basis]. change (Z.to_nat _) with 3%nat. cbn [quad_trim]. 
      match goal with |- context [Rle_dec ?a 0] => change a with 1%R end. destruct (Rle_dec 1 0); [lra|reflexivity]. }
    rewrite E. reflexivity.
  - reflexivity.
  - unfold tab_rows. change (1 - 1) with 0. change (d_N _ _ _ _) with (fill_values (fun u => bs_CB 0 1 u 1 1 per_knots) [1; 0; 1]%R (elem_points 9 per_knots 1 [-1; 0; 1]%R 3) 0 (fun _ _ _ => v) 2 0 0).
    unfold elem_points. cbn [map app fill_values]. destruct (Rlt_dec 0 1); [|lra]. destruct (Rlt_dec 0 0); [lra|]. reflexivity.
Qed.
Print Assumptions C99_weights_order_refuted.

(** A rule without positive weights: IGASetUp succeeds, and the number of points of a face is a division by zero. *)
Theorem C99_no_positive_weight_refuted : exists r, usable (fun z => dec z) r /\ forall lit N0, rounds lit ->
  (forall i, 0 <= i < 3 -> ex_basis lit (per_axes 0) N0 r i = (Ok, ex_r' lit (per_axes 0) N0 r i, Some (ex_BT lit (per_axes 0) N0 r i))) /\
  tab_count (ex_BT lit (per_axes 0) N0 r) (0, 0, 0) (Face 0 0) = None.
Proof.
  exists (mk_rule RUser 1 (Some [0]%R) (Some [0]%R)). split.
  - right. cbn. split; [lia|]. exists [0%R], [0%R]. auto.
  - intros lit N0 HL. split.
    + intros i Hi. destruct (Z.eq_dec i 0) as [ -> |D]; [reflexivity|apply ex_unit; lia].
    + unfold tab_count, coord. zc.
      assert (E : quad_size (ex_BT lit (per_axes 0) N0 (mk_rule RUser 1 (Some [0]%R) (Some [0]%R)) 0) 0 = 0).
      { unfold quad_size. change (Z.to_nat _) with 1%nat. cbn [quad_trim]. match goal with |- context [Rle_dec ?a 0] => change a with 0%R end. destruct (Rle_dec 0 0); [reflexivity|lra]. }
      rewrite E. reflexivity.
Qed.
Print Assumptions C99_no_positive_weight_refuted.

(** ** Examples: one dimension, one component *)
(** grad . kap grad + sig, m functions in the element, as an m x m array. *)
Definition dr_array (m : Z) (kap sig : R) (S : nders) (k : Z) : R :=
  (n1 S 1%Z (k / m + 1)%Z * kap * n1 S 1%Z (k mod m + 1)%Z + sig * n0 S (k / m + 1)%Z * n0 S (k mod m + 1)%Z)%R.
Lemma dr_array_ok m kap sig S : 1 <= m -> diffusion_reaction 1 1 (fun d => if d <? 1 then m else 1) (n0 S) (n1 S) (fun _ _ => kap) sig (dr_array m kap sig S).
Proof.
  intros Hm a b c d Ha Hb Hc Hd. replace c with 0 by lia. replace d with 0 by lia. change (0 =? 0) with true. cbv iota.
  destruct a as [[a a1] a2], b as [[b b1] b2]. unfold in_box, zero3 in Ha, Hb.
  change (if 0 <? 1 then m else 1) with m in *. change (if 1 <? 1 then m else 1) with 1 in *. change (if 2 <? 1 then m else 1) with 1 in *.
  destruct Ha as (Ha & Ha1 & Ha2), Hb as (Hb & Hb1 & Hb2). replace a1 with 0 by lia. replace a2 with 0 by lia. replace b1 with 0 by lia. replace b2 with 0 by lia.
  change (zseq 0 1) with [0]. unfold rsum. cbn [fold_right map].
  assert (La : forall x, lin (fun d => if d <? 1 then m else 1) (x, 0, 0) = x) by (intros x; unfold lin; zc; lia). rewrite !La.
  unfold rows. replace (vol (fun d => if d <? 1 then m else 1)) with m by (unfold vol; zc; lia).
  replace ((a * 1 + 0) * (m * 1) + (b * 1 + 0)) with (b + a * m) by ring. unfold dr_array.
  rewrite Z.div_add, Z.mod_add by lia. rewrite Z.div_small, Z.mod_small by lia. change (0 + a) with a. change (0 + 1) with 1. simpl. ring.
Qed.
Lemma psd1 k : (0 <= k)%R -> psd 1 (fun _ _ => k).
Proof.
  intros H. split; [intros i j _ _; reflexivity|]. intros x. unfold qform. change (zseq 0 1) with [0]. unfold rsum. simpl. pose proof (Rle_0_sqr (x 0)). unfold Rsqr in H0. nra.
Qed.
Lemma spd1 k : (0 < k)%R -> spd 1 (fun _ _ => k).
Proof.
  intros H. split; [intros i j _ _; reflexivity|]. intros x (i & Hi & Hx). assert (i = 0) as -> by lia. unfold qform. change (zseq 0 1) with [0]. unfold rsum. simpl.
  assert (0 < x 0%Z * x 0%Z)%R by (pose proof (Rsqr_pos_lt _ Hx) as P; exact P). nra.
Qed.

Definition ex_lit (z : Z) : R := round radix2 (FLT_exp (-1074) 53) ZnearestE (dec z).
Definition ex_N0 (_ _ _ _ : Z) : R := 7%R.
Definition ex_tab := ex_BT ex_lit (ex_raxes 0) ex_N0 rule_create.
Definition old_n : triple -> form_visit -> Z -> nders := fun _ _ _ => mk_nders (fun _ => 7%R) (fun _ _ => 7%R) (fun _ _ _ => 7%R) (fun _ _ _ _ => 7%R) (fun _ _ _ _ _ => 7%R).
Definition old_e : triple -> form_visit -> Z -> inv_map := fun _ _ _ => mk_inv_map 7 (fun _ _ => 7%R) (fun _ _ _ => 7%R) (fun _ _ _ _ => 7%R) (fun _ _ _ _ _ => 7%R).
(** No rational weights, no geometry. *)
Definition ex_sh (e : triple) (f : form_visit) (q : Z) := tab_shape 1 1 ex_tab (fun _ => None) (fun _ => None) old_n old_n old_n old_e e f q.
Definition ex_JW (e : triple) (f : form_visit) (q : Z) := tab_JW 1 1 ex_tab R_sqrt.sqrt (fun _ => None) (fun _ => None) old_n old_n old_n old_e e f q.
Definition ex_np (e : triple) (f : form_visit) := Z.max 1 (tab_npts ex_tab e f).
Definition ex_call : Z -> Z -> bool := fun _ _ => true.
Definition ex_cb (kap sig : R) : cb0 := fun e f q _ k => dr_array 3 kap sig (ex_sh e f q) k.

Lemma ex_HBT i : 0 <= i < 3 -> setup_basis ex_lit 9 (bs_CB i) 1 i true (ax_p (ex_raxes i)) (ax_m (ex_raxes i)) (ax_U (ex_raxes i)) (spans_of (ex_raxes i)) ex_N0 rule_create =
  (Ok, ex_r' ex_lit (ex_raxes 0) ex_N0 rule_create i, Some (ex_tab i)).
Proof. intros Hi. destruct (Z.eq_dec i 0) as [ -> |D]; [reflexivity|]. apply (ex_unit ex_lit (ex_raxes 0)). lia. Qed.
Lemma ex_good : good_rule ex_lit rule_create.
Proof. split; [left; auto|discriminate]. Qed.
Lemma ex_enough p : enough_points ex_lit p rule_create.
Proof. split; [left; auto|left; reflexivity]. Qed.
Lemma ex_Hax i : 0 <= i < 1 -> axis_ready (ex_raxes i) /\ ends_nonempty (ax_p (ex_raxes i)) (ax_m (ex_raxes i)) (ax_U (ex_raxes i)).
Proof. intros Hi. destruct ex_rsetup_ok as (_ & _ & _ & H & _). exact (H i Hi). Qed.
Lemma ex_HCB (i k : Z) (v : R) : 0 <= i < 1 -> exists ndu0 a0 ders0 l0 r0, forall o a, 0 <= a <= ax_p (ex_raxes i) ->
    bs_CB i k v (ax_p (ex_raxes i)) (Z.min (ax_p (ex_raxes i)) 4) (ax_U (ex_raxes i)) o a =
    basis_bspline k v (ax_p (ex_raxes i)) (Z.min (ax_p (ex_raxes i)) 4) (ax_U (ex_raxes i)) ndu0 a0 ders0 l0 r0 o a.
Proof. intros _. do 5 eexists. reflexivity. Qed.
Lemma ex_Hnp e f : 1 <= ex_np e f.
Proof. unfold ex_np. lia. Qed.
Definition ex_nel (d : Z) := if d <? 1 then ax_nel (ex_raxes d) else 1.
Lemma ex_Htab e f : in_box zero3 ex_nel e -> touches 1 ex_nel e f ->
  ex_np e f = tab_npts ex_tab e f /\ forall q, ex_JW e f q = tab_JW 1 1 ex_tab R_sqrt.sqrt (fun _ => None) (fun _ => None) old_n old_n old_n old_e e f q.
Proof.
  intros He Hf. split; [|reflexivity].
  destruct (C99_quadrature ex_lit C36_double_precision 9 1 ltac:(lia) ex_raxes ex_Hax (fun _ => true) bs_CB (fun _ => ex_N0) (fun _ => rule_create) _ ex_tab ex_HBT (fun _ _ => ex_good) e f He Hf)
    as (nq & x & w & H1 & H2 & H3 & H4 & _).
  unfold ex_np. enough (1 <= tab_npts ex_tab e f) by lia. unfold tab_npts. rewrite H4.
  assert (H0 : 1 <= nq 0).
  { specialize (H1 0 ltac:(lia)). specialize (H2 0 ltac:(lia)). destruct f as [axis side|].
    - destruct (Z.eq_dec 0 axis) as [E|E]; [destruct (H1 E); lia|destruct (H2 E); lia].
    - destruct (H2 I); lia. }
  rewrite (proj1 (H3 1 ltac:(lia))), (proj1 (H3 2 ltac:(lia))). lia.
Qed.
Lemma ex_psd kap sig e f q : (0 <= kap)%R -> (0 <= sig)%R -> psd 3 (rows 3 (dr_array 3 kap sig (ex_sh e f q))).
Proof.
  intros Hk Hs. refine (proj2 (proj2 (C100_C101_diffusion_reaction 1 1 (fun d => if d <? 1 then 3 else 1) _ _ _ sig _ _ _ _ (dr_array_ok 3 kap sig _ _))) _ Hs); try lia.
  - intros d _. destruct (d <? 1); lia.
  - apply psd1; auto.
Qed.

Definition ex_G (r : Z) := grid_of 1 (ly_node (ex_rLY r)).
Definition ex_elems (r : Z) := rank_elements (ex_e0 r) 1 (ly_elem_start (ex_rLY r)) (ly_elem_width (ex_rLY r)) (fun _ => 5).
Definition ex_mapping (r : Z) (e : triple) := closure (elem_off 1 ex_raxes e) (basis_nen 1 ex_raxes) (gr_gstart (ex_G r)) (gr_gwidth (ex_G r)).
Definition ex_nen (d : Z) := if d <? 1 then ax_p (ex_raxes d) + 1 else 1.
(** Mass matrix of quadratic functions on three elements and two processes, with boundary terms; default rule *)
Example C100_example : spd 5 (compute_matrix 2 ex_G 1 ex_elems ex_mapping (k_matrix 1 1 ex_nen ex_nel ex_call ex_np ex_JW (ex_cb 0 1)) [] (fun _ _ => 7%R) [1; 0]).
Proof.
  apply (C100_matrix ex_lit C36_double_precision 9 1 1 ltac:(lia) ex_raxes ex_Hax (fun _ => true) bs_CB (fun _ => ex_N0) (fun _ => rule_create) _ ex_tab ex_HBT (fun _ _ => ex_good)
    exact_g2 exact_g3 (2^31-1) 2 [(-1)] ex_rLY 1 ex_e0 (fun _ _ => 5) ex_rsetup_ok ltac:(lia) ex_value ex_load (fun _ _ _ => 1%R) ex_call ex_value_ok ex_load_ok None (fun _ _ => 7%R) [1; 0] ex_order
    ex_HCB (fun _ _ => ex_enough _) R_sqrt.sqrt (fun _ => None) (fun _ => None) old_n old_n old_n old_e sqrt_pos ltac:(discriminate) ltac:(intros e q _ K; contradiction K; reflexivity) ex_np ex_JW ex_Hnp ex_Htab (ex_cb 0 1) []).
  - intros e axis side q _ _ _. apply ex_psd; lra.
  - intros e q He Hq. refine (proj1 (C100_C101_diffusion_reaction 1 1 ex_nen _ _ _ 1 _ _ _ _ (dr_array_ok 3 0 1 _ _)) _ _); try lia; try lra.
    + intros d _. unfold ex_nen. destruct (d <? 1); cbn; lia.
    + apply psd1. lra.
Qed.
(** Stiffness matrix of the same functions, with the Dirichlet condition on the left *)
Example C101_example : spd 5 (compute_matrix 2 ex_G 1 ex_elems ex_mapping
  (fun e ins => fst (k_system 1 1 ex_nen ex_nel (fun d => ax_periodic (ex_raxes d)) ex_call ex_value ex_load (fun _ _ _ => 1%R) false ex_np ex_JW (ex_cb 1 0) (fun _ _ _ _ _ => 1%R) e ins)) [] (fun _ _ => 7%R) [1; 0]).
Proof.
  apply (C101_system ex_lit C36_double_precision 9 1 1 ltac:(lia) ltac:(lia) ex_raxes ex_Hax (fun _ => true) bs_CB (fun _ => ex_N0) (fun _ => rule_create) _ ex_tab ex_HBT (fun _ _ => ex_good)
    exact_g2 exact_g3 (2^31-1) 2 [(-1)] ex_rLY 1 ex_e0 (fun _ _ => 5) ex_rsetup_ok ltac:(lia) ex_value ex_load (fun _ _ _ => 1%R) ex_call ex_value_ok ex_load_ok None (fun _ _ => 7%R) [1; 0] ex_order
    ex_HCB (fun _ _ => ex_enough _) R_sqrt.sqrt (fun _ => None) (fun _ => None) old_n old_n old_n old_e sqrt_pos ltac:(discriminate) ltac:(intros e q _ K; contradiction K; reflexivity) ex_np ex_JW ex_Hnp ex_Htab (ex_cb 1 0) (fun _ _ _ _ _ => 1%R)).
  - intros e axis side q _ _ _. apply ex_psd; lra.
  - reflexivity.
  - intros c Hc. exists 0, 0. repeat (split; [lia || auto|]). left. cbn. lia.
  - intros e q He Hq. refine (proj1 (proj2 (C100_C101_diffusion_reaction 1 1 ex_nen _ _ _ 0 _ _ _ _ (dr_array_ok 3 1 0 _ _))) _ _); try lia; try lra.
    + intros d _. unfold ex_nen. destruct (d <? 1); cbn; lia.
    + apply spd1. lra.
Qed.

(** ** With as many points as the degree, the mass matrix can be singular *)
Definition mid_rule : rule := mk_rule RUser 1 (Some [0]%R) (Some [2]%R).
Section Midpoint.
  Variable lit : Z -> R.
  Hypothesis HL : rounds lit.
  Let BT := ex_BT lit (per_axes 0) ex_N0 mid_rule.
  Let sh := fun e f q => tab_shape 1 1 BT (fun _ => None) (fun _ => None) old_n old_n old_n old_e e f q.
  Lemma mid_val k a : k = 1 \/ k = 2 -> a = 0 \/ a = 1 -> bs_CB 0 k ((0 + 1) * ((per_knots (k+1) - per_knots k) / 2) + per_knots k)%R 1 1 per_knots 0 a = (1/2)%R.
  Proof.
    intros Hk Ha. set (u := (_ + _)%R).
    assert (HN : nondecreasing (O:=Rord) 4 per_knots) by (intros x y _ H _; apply kle_R; apply IZR_le; lia).
    assert (HU : (per_knots k < per_knots (k+1))%R) by (apply IZR_lt; lia).
    destruct (C31_derivatives 1 4 per_knots k u (fun _ _ => 0%R) (fun _ _ => 0%R) (fun _ _ => 0%R) (fun _ => 0%R) (fun _ => 0%R) HN ltac:(lia) ltac:(lia) HU 0 ltac:(lia)) as (V & _).
    specialize (V a ltac:(lia)). cbn [Z.to_nat Coquelicot.Derive.is_derive_n] in V. unfold bs_CB. change (Z.min 1 4) with 1 in V. etransitivity; [exact (eq_sym V)|].
    unfold u, bspline_piece, per_knots. change (Z.to_nat 1) with 1%nat. cbn [bsp]. change (Z.of_nat 1) with 1. unfold piece, frac.
    destruct Hk as [ -> | -> ]; destruct Ha as [ -> | -> ];
    repeat match goal with |- context [Z.eq_dec ?a ?b] => destruct (Z.eq_dec a b); [try lia|try lia] end;
    rewrite ?minus_IZR, ?plus_IZR, ?minus_IZR, ?plus_IZR;
    repeat match goal with |- context [Req_EM_T ?a ?b] => destruct (Req_EM_T a b); [try (exfalso; lra)|] end; field; lra.
  Qed.
  Lemma mid_shape e a : e = (0,0,0) \/ e = (1,0,0) -> a = 1 \/ a = 2 -> n0 (sh e Interior 0) a = (1/2)%R.
  Proof.
    intros He Ha. 
    assert (E : n0 (sh e Interior 0) a = tab_rows 1 BT e Interior 0 1 0 a).
    { destruct Ha as [ -> | -> ]; reflexivity. }
    rewrite E. unfold tab_rows. change (1 - 1) with 0.
    set (k := coord e 0 + 1). assert (Hk : k = 1 \/ k = 2) by (unfold k, coord; destruct He as [ -> | -> ]; zc; lia).
    transitivity (fill_values (fun u => bs_CB 0 k u 1 1 per_knots) [2%R] (elem_points 9 per_knots k [0%R] 1) 0 (ex_N0 0) 0 0 (a-1)).
    - destruct He as [ -> | -> ]; reflexivity.
    - unfold elem_points. cbn [map app fill_values]. destruct (Rlt_dec 0 2); [|lra]. cbn [fill_values]. 
      apply mid_val; auto. lia.
  Qed.
End Midpoint.
(** Two linear periodic functions on two elements, one point in the middle of each: setup succeeds, the rule is good, the
    point matrices are definite in the sense of C100, and the mass matrix annihilates (1, -1). *)
Theorem C100_with_fewer_points_singular : exists r, forall lit, rounds lit ->
  good_rule lit r /\
  (forall i, 0 <= i < 3 -> ex_basis lit (per_axes 0) ex_N0 r i = (Ok, ex_r' lit (per_axes 0) ex_N0 r i, Some (ex_BT lit (per_axes 0) ex_N0 r i))) /\
  let BT := ex_BT lit (per_axes 0) ex_N0 r in
  let sh := fun e f q => tab_shape 1 1 BT (fun _ => None) (fun _ => None) old_n old_n old_n old_e e f q in
  let JW := fun e f q => tab_JW 1 1 BT R_sqrt.sqrt (fun _ => None) (fun _ => None) old_n old_n old_n old_e e f q in
  let G := fun r => grid_of 1 (ly_node (per_LY r)) in
  let N := fun d => if d <? 1 then ax_nnp (per_axes d) else 1 in
  let nel := fun d => if d <? 1 then ax_nel (per_axes d) else 1 in
  let nen := fun d => if d <? 1 then ax_p (per_axes d) + 1 else 1 in
  let A := compute_matrix 1 G 1 (fun r => rank_elements (ex_e0 r) 1 (ly_elem_start (per_LY r)) (ly_elem_width (per_LY r)) (fun _ => 5))
    (fun r e => closure (elem_off 1 per_axes e) (basis_nen 1 per_axes) (gr_gstart (G r)) (gr_gwidth (G r)))
    (k_matrix 1 1 nen nel (fun _ _ => false) (fun _ _ => 1) JW (fun e f q _ => dr_array 2 0 1 (sh e f q))) [] (fun _ _ => 7%R) [0] in
  (forall e, in_box zero3 nel e -> tab_count BT e Interior = Some 1 /\ definite_values 1 nen (n0 (sh e Interior 0)) (dr_array 2 0 1 (sh e Interior 0))) /\
  exists x : nodal, x (0, 0, 0) 0 = 1%R /\ forall t c, in_box zero3 N t -> 0 <= c < 1 ->
    node_row N 1 (fun t c u d => A (1 * ao 1 G (lin N t) + c) (1 * ao 1 G (lin N u) + d)) x t c = 0%R.
Proof.
  exists mid_rule. intros lit HL. split; [|split; [|split]].
  - split; [right; cbn; split; [lia|]; exists [0%R], [2%R]; auto|]. intros _. exists [2%R], 1. split; [reflexivity|]. split; [lia|].
    split; [change (0 <= 1 <= 1); lia|]. split; intros q Hq; [|change (1 <= q < 1) in Hq; lia]. replace q with 0 by lia. change (0 < 2)%R. lra.
  - intros i Hi. destruct (Z.eq_dec i 0) as [ -> |D]; [reflexivity|apply ex_unit; lia].
  - intros e He. destruct e as [[e0 e1] e2]. change (0 <= e0 < 0 + 2 /\ 0 <= e1 < 0 + 1 /\ 0 <= e2 < 0 + 1) in He. split.
    + replace e1 with 0 by lia. replace e2 with 0 by lia. unfold tab_count, coord. zc.
      rewrite (ex_unit_size lit _ _ _ 1), (ex_unit_size lit _ _ _ 2) by (auto; lia).
      assert (E : quad_size (ex_BT lit (per_axes 0) ex_N0 mid_rule 0) e0 = 1).
      { unfold quad_size. change (Z.to_nat _) with 1%nat. cbn [quad_trim]. match goal with |- context [Rle_dec ?a 0] => change a with 2%R end. destruct (Rle_dec 2 0); [lra|reflexivity]. }
      rewrite E. reflexivity.
    + refine (proj1 (C100_C101_diffusion_reaction 1 1 _ _ _ _ 1 _ _ _ _ (dr_array_ok 2 0 1 _ _)) _ _); try lia; try lra.
      * intros d _. destruct (d <? 1); lia.
      * apply psd1. lra.
  - exists (fun t _ => if coord t 0 =? 0 then 1%R else (-1)%R). split; [reflexivity|].
    apply (C101_null_vectors exact_g2 exact_g3 (2^31-1) 1 1 per_axes [-1] per_LY 1 ex_e0 (fun _ _ => 5) per_setup_ok ltac:(lia) (fun _ _ => false) (fun _ _ => 1) _ ltac:(lia) None (fun _ _ => 7%R) [0] (Permutation_refl _) _ []).
    intros e f q i He Hf Hq Hi. replace q with 0 by lia. destruct Hf as [<-|[]].
    change (vol _ * 1) with 2 in *. change (zseq 0 2) with [0; 1]. unfold rsum. cbn [fold_right map].
    assert (He' : e = (0,0,0) \/ e = (1,0,0)).
    { destruct e as [[e0 e1] e2]. change (0 <= e0 < 0 + 2 /\ 0 <= e1 < 0 + 1 /\ 0 <= e2 < 0 + 1) in He. replace e1 with 0 by lia. replace e2 with 0 by lia. assert (C : e0 = 0 \/ e0 = 1) by lia. destruct C as [ -> | -> ]; auto. }
    assert (HD : forall j, j = 0 \/ j = 1 -> rows 2 (dr_array 2 0 1 (tab_shape 1 1 (ex_BT lit (per_axes 0) ex_N0 mid_rule) (fun _ => None) (fun _ => None) old_n old_n old_n old_e e Interior 0)) i j = (1/4)%R).
    { intros j Hj. unfold rows, dr_array. assert (D1 : (i * 2 + j) / 2 = i) by (symmetry; apply (Z.div_unique _ _ _ j); lia). assert (D2 : (i * 2 + j) mod 2 = j) by (symmetry; apply (Z.mod_unique _ _ i); lia). rewrite D1, D2.
      rewrite !(mid_shape lit e) by (auto; lia). lra. }
    rewrite !HD by auto.
    destruct He' as [ -> | -> ].
    + match goal with |- (_ * ?a + (_ * ?b + _) = _)%R => change a with 1%R; change b with (-1)%R end. lra.
    + match goal with |- (_ * ?a + (_ * ?b + _) = _)%R => change a with (-1)%R; change b with 1%R end. lra.
Qed.
Print Assumptions C100_with_fewer_points_singular.
(** C99 on the left face and in the last element of the quadratic example *)
Example C99_example := 
  let Q := C99_quadrature ex_lit C36_double_precision 9 1 ltac:(lia) ex_raxes ex_Hax (fun _ => true) bs_CB (fun _ => ex_N0) (fun _ => rule_create) _ ex_tab ex_HBT (fun _ _ => ex_good) in
  conj (Q (0, 0, 0) (Face 0 0) ltac:(cbv; intuition congruence) ltac:(cbv; intuition congruence)) (Q (2, 0, 0) Interior ltac:(cbv; intuition congruence) I).
