(** Theorems about IGAComputeErrorNorm (C86, C87). *)
From Coq Require Import ZArith List Bool Lia Reals Lra Permutation.
From Coq Require Import ZifyBool ZifyNat.
From Verif Require Import Prelude RealOrd AxisModel AxisSpec AxisInitModel PartModel PartSpec PartProofs SetupModel SetupProofs SetupProps
  GridModel GridSpec GridProofs GridProofs2 GridSetup GridProps ElemModel ElemSpec ElemProofs AsmProofs ElemProps RuleProps
  BCModel BCSpec BCProofs BCProofs2 DrvModel DrvSpec DrvProofs2 DrvProofs3 DrvProps ErrModel ErrSpec ErrProofs.
From Verif Require Import Box.
Import ListNotations.
Open Scope Z_scope.

Section Norms.
  Variable O : KnotOrd.
  Variables (g2 : Z -> Z -> Z -> Z) (g3 : Z -> Z -> Z -> Z -> Z) (maxint size dim : Z).
  Variable axes : Z -> axis O.
  Variable user : list Z.
  Variable LY : Z -> layout.
  Variable dof : Z.
  Variable e0 : Z -> elem.
  Variable sizes : Z -> Z -> Z.
  Hypothesis Hset : setup_ok g2 g3 maxint size dim axes user LY.
  Hypothesis Hdof : 1 <= dof.
  Variable npts : triple -> Z.
  Variable JW : triple -> Z -> R.
  Variable order : Z.
  Variable shape : Z -> triple -> Z -> Z -> R.
  Variable L0 : Z -> Z -> R.
  Variable ranks : list Z.
  Hypothesis Hranks : Permutation ranks (zseq 0 size).

  Let G := fun r => grid_of dof (ly_node (LY r)).
  Let N := fun d => if d <? dim then ax_nnp (axes d) else 1.
  Let nel := fun d => if d <? dim then ax_nel (axes d) else 1.
  Let nen := fun d => if d <? dim then ax_p (axes d) + 1 else 1.
  Let first := fun e d => if d <? dim then span_at (axes d) (coord e d) - ax_p (axes d) else 0.
  Let elems := fun r => rank_elements (e0 r) dim (ly_elem_start (LY r)) (ly_elem_width (LY r)) (sizes r).
  Let mapping := fun r e => closure (elem_off dim axes e) (basis_nen dim axes) (gr_gstart (G r)) (gr_gwidth (G r)).
  Let ix := fun (t : triple) (c : Z) => dof * ao size G (lin N t) + c.
  Let field := fun (vecU : option (Z -> R)) (t : triple) (c : Z) => match vecU with Some V => V (ix t c) | None => 0%R end.
  (** k-th partial derivatives of basis functions and exact solution: the tables and the callback's array. *)
  Let D := fun k e q a j => shape k e q (lin nen a * dim ^ k + j).
  Let exact := fun (Exact : option (triple -> Z -> Z -> (Z -> R) -> Z -> R)) k e q i j =>
    match Exact with Some E => E e q k (fun _ => 0%R) (i * dim ^ k + j) | None => 0%R end.
  Let norm := compute_error_norm size G dim dof elems mapping (vol nen) npts JW order shape.

  Lemma nHdim : 1 <= dim <= 3.
  Proof. destruct (setup_form _ _ _ _ _ _ _ _ Hset) as (m & _ & _ & H & _). exact H. Qed.
  Lemma nHnen : forall d, 0 <= d < 3 -> 1 <= nen d.
  Proof.
    intros d Hd. unfold nen. destruct (d <? dim) eqn:E; [|lia].
    destruct (setup_wf _ _ _ _ _ _ _ _ Hset d ltac:(lia)) as (l & (_ & (Hp & _) & _) & _). lia.
  Qed.
  Lemma nHN : forall d, 0 <= d < 3 -> 1 <= N d.
  Proof.
    intros d Hd. assert (Hs : 1 <= size) by (destruct Hset as (_ & _ & X & _); exact X).
    destruct (setup_node_facts _ _ _ _ _ _ _ _ Hset 0 d ltac:(lia) Hd) as (_ & B & _). exact (proj1 B).
  Qed.

(** For every derivative index up to the order of the discretisation, on any number of processes: the norm of
    exact minus discrete k-th derivatives; [vecU] or [Exact] missing counts as zero. *)
Theorem C86_error_norm : forall k vecU Exact, 0 <= k <= 4 -> k <= order ->
  exists f, norm k vecU Exact L0 ranks = Norm f /\
    forall i, 0 <= i < dof -> f i = sqrt (sq_error N nen nel first npts JW (dim ^ k) (D k) (exact Exact k) (field vecU) i).
Proof.
  intros k vecU Exact Hk Ho. pose proof nHdim as Hd. unfold norm, compute_error_norm.
  replace (k <? 0) with false by lia. replace (clip dim 1 3) with dim by (unfold clip; lia). replace (clip k 0 4) with k by (unfold clip; lia).
  rewrite intpow_spec by auto. rewrite Z.ltb_irrefl. eexists. split; [reflexivity|]. intros i Hi. cbv beta. f_equal.
  set (ins := match vecU with Some V => [V] | None => [] end). set (X := match vecU with Some V => [field (Some V)] | None => [] end).
  assert (HF : Forall2 (fun V x => forall t c, in_box zero3 N t -> 0 <= c < dof -> V (dof * ao size G (lin N t) + c) = x t c) ins X).
  { unfold ins, X. destruct vecU; constructor; auto. }
  etransitivity; [exact (proj2 (proj2 (C21_C51_assembly_is_serial_sum O g2 g3 maxint size dim axes user LY dof e0 sizes Hset Hdof (fun _ _ _ => 0%R) (fun _ _ _ => 0%R)
    npts JW _ ins X L0 ranks Hranks HF)) i)|].
  unfold serial_scalar, sq_error. apply rsum_ext. intros e He. apply rsum_ext. intros q Hq. f_equal.
  rewrite error_sqr_spec by auto. apply rsum_ext. intros j Hj. apply in_zseq in Hj. f_equal. f_equal.
  - unfold exact. destruct Exact; reflexivity.
  - unfold discrete, shape_table. replace (k <=? order) with true by lia.
    pose proof (nHnen 0 ltac:(lia)) as P0. pose proof (nHnen 1 ltac:(lia)) as P1. pose proof (nHnen 2 ltac:(lia)) as P2.
    change (fun d => if d <? dim then ax_p (axes d) + 1 else 1) with nen.
    rewrite (rsum_box _ zero3 nen) by lia. apply rsum_ext. intros a Ha. apply In_box in Ha.
    assert (Z0 : tsub zero3 a = a). { destruct a as [[x y] z]. unfold tsub, zero3. rewrite !Z.sub_0_r. reflexivity. }
    rewrite Z0. unfold D. f_equal. unfold X. destruct vecU as [V|]; cbn [map nth].
    + exact (earr_at dof N nen nel first (fun _ _ => true) (fun _ _ => 1) (fun _ _ _ => 0%R) (fun _ _ => None) (fun _ _ _ => 0%R) Hdof nHnen nHN (field (Some V)) e a i Ha Hi).
    + unfold arr, field. destruct (_ <? 0); auto. destruct (Z.to_nat _); reflexivity.
Qed.

  (** The squared norm as one sum over elements, points and derivatives. *)
  Let all := fun k => flat_map (fun e => flat_map (fun q => map (fun j => (e, q, j)) (zseq 0 (dim ^ k))) (zseq 0 (npts e))) (box zero3 nel).
  Lemma sq_flat k Exact x i : sq_error N nen nel first npts JW (dim ^ k) (D k) (exact Exact k) x i =
    rsum (fun p : triple * Z * Z => let '(e, q, j) := p in
      JW e q * ((exact Exact k e q i j - discrete N nen first (D k) x e q i j) * (exact Exact k e q i j - discrete N nen first (D k) x e q i j)))%R (all k).
  Proof.
    unfold sq_error, all. rewrite rsum_flat_map. apply rsum_ext. intros e _. rewrite rsum_flat_map. apply rsum_ext. intros q _.
    rewrite rsum_map. rewrite Rmult_comm, <- rsum_scal. apply rsum_ext. intros j _. ring.
  Qed.
  Lemma in_all k e q j : In (e, q, j) (all k) <-> In e (box zero3 nel) /\ 0 <= q < npts e /\ 0 <= j < dim ^ k.
  Proof.
    unfold all. rewrite in_flat_map. split.
    - intros (e' & He & H). rewrite in_flat_map in H. destruct H as (q' & Hq & H). apply in_map_iff in H. destruct H as (j' & E & Hj).
      injection E as -> -> ->. apply in_zseq in Hq. apply in_zseq in Hj. split; [auto|lia].
    - intros (He & Hq & Hj). exists e. split; auto. rewrite in_flat_map. exists q. split; [apply in_zseq; lia|]. apply in_map. apply in_zseq. lia.
  Qed.
  Hypothesis HJW : forall e q, In e (box zero3 nel) -> 0 <= q < npts e -> (0 < JW e q)%R.

  Lemma discrete_plus k U W e q i j : discrete N nen first (D k) (field (Some (fun n => U n + W n)%R)) e q i j =
    (discrete N nen first (D k) (field (Some U)) e q i j + discrete N nen first (D k) (field (Some W)) e q i j)%R.
  Proof. unfold discrete. rewrite <- rsum_plus. apply rsum_ext. intros a _. unfold field. ring. Qed.
  Lemma discrete_scal k c U e q i j : discrete N nen first (D k) (field (Some (fun n => c * U n)%R)) e q i j =
    (c * discrete N nen first (D k) (field (Some U)) e q i j)%R.
  Proof. unfold discrete. rewrite <- rsum_scal. apply rsum_ext. intros a _. unfold field. ring. Qed.

(** With positive detJac*weight: zero exactly when the derivatives agree at all points. *)
Theorem C86_zero : forall k vecU Exact f i, 0 <= k <= 4 -> k <= order -> 0 <= i < dof -> norm k vecU Exact L0 ranks = Norm f ->
  (f i = 0%R <-> forall e q j, In e (box zero3 nel) -> 0 <= q < npts e -> 0 <= j < dim ^ k ->
     exact Exact k e q i j = discrete N nen first (D k) (field vecU) e q i j).
Proof.
  intros k vecU Exact f i Hk Ho Hi E. destruct (C86_error_norm k vecU Exact Hk Ho) as (f' & E' & F). rewrite E in E'. injection E' as <-.
  rewrite F, sq_flat by auto.
  set (v := fun p : triple * Z * Z => let '(e, q, j) := p in (exact Exact k e q i j - discrete N nen first (D k) (field vecU) e q i j)%R).
  set (w := fun p : triple * Z * Z => let '(e, q, j) := p in JW e q).
  rewrite (rsum_ext _ _ (fun p => w p * (v p * v p))%R) by (intros [[e q] j] _; reflexivity).
  assert (W : forall p, In p (all k) -> (0 < w p)%R) by (intros [[e q] j] Hp; apply in_all in Hp; apply HJW; tauto).
  assert (K : forall l, (forall p, In p l -> (0 < w p)%R) -> (0 <= rsum (fun p => w p * (v p * v p)) l)%R /\
    (rsum (fun p => w p * (v p * v p))%R l = 0%R <-> forall p, In p l -> v p = 0%R)).
  { induction l as [|p l IH]; intros Hl; [split; [unfold rsum; cbn; lra|split; [intros _ p []|reflexivity]]|].
    rewrite rsum_cons. destruct IH as (P & Q); [intros; apply Hl; right; auto|]. pose proof (Hl p (or_introl eq_refl)) as Wp.
    pose proof (Rle_0_sqr (v p)) as S. unfold Rsqr in S. pose proof (Rmult_le_pos _ _ (Rlt_le _ _ Wp) S) as M. split; [lra|]. split.
    - intros Z0. assert (Z1 : (w p * (v p * v p) = 0)%R) by lra. assert (Z2 : rsum (fun p => w p * (v p * v p))%R l = 0%R) by lra.
      intros p' [<-|Hin]; [|apply (proj1 Q Z2); auto]. apply Rmult_integral in Z1. destruct Z1 as [Z1|Z1]; [lra|]. apply Rmult_integral in Z1. tauto.
    - intros Z0. rewrite (Z0 p) by (left; auto). rewrite (proj2 Q) by (intros; apply Z0; right; auto). lra. }
  destruct (K (all k) W) as (P & Q). split.
  - intros Z0 e q j He Hq Hj. apply sqrt_eq_0 in Z0; auto. pose proof (proj1 Q Z0 (e, q, j)) as V. unfold v in V.
    assert (V' : (exact Exact k e q i j - discrete N nen first (D k) (field vecU) e q i j = 0)%R) by (apply V; apply in_all; auto). lra.
  - intros H. rewrite (proj2 Q); [apply sqrt_0|]. intros [[e q] j] Hp. apply in_all in Hp. unfold v. rewrite (H e q j); tauto || lra.
Qed.
(** Triangle inequality and homogeneity. *)
Theorem C86_triangle : forall k U W Exact f g h i, 0 <= k <= 4 -> k <= order -> 0 <= i < dof ->
  norm k (Some U) Exact L0 ranks = Norm f -> norm k (Some W) None L0 ranks = Norm g ->
  norm k (Some (fun n => U n + W n)%R) Exact L0 ranks = Norm h -> (h i <= f i + g i)%R.
Proof.
  intros k U W Exact f g h i Hk Ho Hi E1 E2 E3.
  destruct (C86_error_norm k (Some U) Exact Hk Ho) as (f' & E' & F). rewrite E1 in E'. injection E' as <-.
  destruct (C86_error_norm k (Some W) None Hk Ho) as (g' & E' & F'). rewrite E2 in E'. injection E' as <-.
  destruct (C86_error_norm k (Some (fun n => U n + W n)%R) Exact Hk Ho) as (h' & E' & F''). rewrite E3 in E'. injection E' as <-.
  rewrite F, F', F'', !sq_flat by auto.
  set (a := fun p : triple * Z * Z => let '(e, q, j) := p in (exact Exact k e q i j - discrete N nen first (D k) (field (Some U)) e q i j)%R).
  set (b := fun p : triple * Z * Z => let '(e, q, j) := p in (exact None k e q i j - discrete N nen first (D k) (field (Some W)) e q i j)%R).
  set (w := fun p : triple * Z * Z => let '(e, q, j) := p in JW e q).
  rewrite (rsum_ext _ _ (fun p => w p * ((a p + b p) * (a p + b p)))%R).
  2:{ intros [[e q] j] _. unfold w, a, b, exact. rewrite discrete_plus. ring. }
  rewrite (rsum_ext _ (fun p : triple * Z * Z => let '(e, q, j) := p in
      JW e q * ((exact Exact k e q i j - discrete N nen first (D k) (field (Some U)) e q i j) * (exact Exact k e q i j - discrete N nen first (D k) (field (Some U)) e q i j)))%R
      (fun p => w p * (a p * a p))%R) by (intros [[e q] j] _; reflexivity).
  rewrite (rsum_ext _ (fun p : triple * Z * Z => let '(e, q, j) := p in
      JW e q * ((exact None k e q i j - discrete N nen first (D k) (field (Some W)) e q i j) * (exact None k e q i j - discrete N nen first (D k) (field (Some W)) e q i j)))%R
      (fun p => w p * (b p * b p))%R) by (intros [[e q] j] _; reflexivity).
  apply minkowski. intros [[e q] j] Hp. apply in_all in Hp. unfold w. apply Rlt_le. apply HJW; tauto.
Qed.
Theorem C86_homogeneous : forall k U c f g i, 0 <= k <= 4 -> k <= order -> 0 <= i < dof ->
  norm k (Some U) None L0 ranks = Norm f -> norm k (Some (fun n => c * U n)%R) None L0 ranks = Norm g -> (g i = Rabs c * f i)%R.
Proof.
  intros k U c f g i Hk Ho Hi E1 E2.
  destruct (C86_error_norm k (Some U) None Hk Ho) as (f' & E' & F). rewrite E1 in E'. injection E' as <-.
  destruct (C86_error_norm k (Some (fun n => c * U n)%R) None Hk Ho) as (g' & E' & F'). rewrite E2 in E'. injection E' as <-.
  rewrite F, F', !sq_flat by auto. rewrite <- sqrt_Rsqr_abs. rewrite <- sqrt_mult_alt by apply Rle_0_sqr. f_equal.
  rewrite <- rsum_scal. apply rsum_ext. intros [[e q] j] _. unfold exact. rewrite discrete_scal. unfold Rsqr. ring.
Qed.
End Norms.

(** ** C87: derivative indices the code cannot handle *)
(** Fifth derivatives in one dimension: no error, the fourth derivatives are used. *)
Theorem C87_fifth_derivative_refuted : exists size G dim dof elems mapping nen npts JW order shape Exact L0 ranks f,
  compute_error_norm size G dim dof elems mapping nen npts JW order shape 5 None (Some Exact) L0 ranks = Norm f /\
  (forall e q i, Exact e q 5 (fun _ => 0%R) i = 0%R) /\ f 0 = 1%R.
Proof.
  exists 1, (fun _ => grid_of 1 (ly_node (ex_rLY 0))), 1, 1, (fun _ => [(0,0,0)]), (fun _ _ => [0]), 1, (fun _ => 1), (fun _ _ => 1%R), 4,
    (fun _ _ _ _ => 0%R), (fun _ _ k _ _ => if k =? 4 then 1%R else 0%R), (fun _ _ => 0%R), [0].
  eexists. split; [reflexivity|]. split; [intros; reflexivity|].
  match goal with |- ?t = _ => replace t with (sqrt 1); [apply sqrt_1|] end. f_equal.
  unfold compute_scalar, local_scalar. cbn [fold_left]. change (zseq 0 1) with [0]. cbn [fold_left].
  rewrite error_sqr_spec by lia. change (zseq 0 1) with [0]. unfold rsum, shape_table. cbn. change (clip 5 0 4) with 4. change (4 =? 4) with true. change (4 <=? 4) with true. cbv iota beta. ring.
Qed.
(** In two dimensions: the arrays allocated are too small. *)
Theorem C87_overflow_refuted : exists dim k, 1 <= dim <= 3 /\ 0 <= k /\
  forall size G dof elems mapping nen npts JW order shape vecU Exact L0 ranks,
  compute_error_norm size G dim dof elems mapping nen npts JW order shape k vecU Exact L0 ranks = Undefined.
Proof. exists 2, 5. split; [lia|]. split; [lia|]. reflexivity. Qed.
(** Derivatives above IGASetOrder's: no error, the discrete field's derivatives count as zero. *)
Theorem C87_order_refuted : exists order k shape U f,
  0 <= k <= 4 /\
  let G := fun r => grid_of 1 (ly_node (ex_rLY r)) in
  let N := fun d => if d <? 1 then ax_nnp (ex_raxes d) else 1 in
  let nel := fun d => if d <? 1 then ax_nel (ex_raxes d) else 1 in
  let nen := fun d => if d <? 1 then ax_p (ex_raxes d) + 1 else 1 in
  let first := fun e d => if d <? 1 then span_at (ex_raxes d) (coord e d) - ax_p (ex_raxes d) else 0 in
  let elems := fun r => rank_elements (ex_e0 r) 1 (ly_elem_start (ex_rLY r)) (ly_elem_width (ex_rLY r)) (fun _ => 5) in
  let mapping := fun r e => closure (elem_off 1 ex_raxes e) (basis_nen 1 ex_raxes) (gr_gstart (G r)) (gr_gwidth (G r)) in
  compute_error_norm 2 G 1 1 elems mapping (vol nen) (fun _ => 1) (fun _ _ => 1%R) order shape k (Some U) None (fun _ _ => 5%R) [1; 0] = Norm f /\
  f 0 <> sqrt (sq_error N nen nel first (fun _ => 1) (fun _ _ => 1%R) 1 (fun e q a j => shape k e q (lin nen a * 1 + j)) (fun _ _ _ _ => 0%R)
    (fun t c => U (1 * ao 2 G (lin N t) + c)) 0).
Proof.
  exists 1, 2, (fun _ _ _ _ => 1%R), (fun _ => 1%R). eexists. split; [lia|]. split; [reflexivity|].
  set (F := fun _ : Z => sqrt _).
  assert (EF : F 0 = 0%R).
  { unfold F. rewrite <- sqrt_0. f_equal.
    pose proof (fun Sc => proj2 (proj2 (C21_C51_assembly_is_serial_sum Rord exact_g2 exact_g3 (2^31-1) 2 1 ex_raxes [(-1)%Z] ex_rLY 1 ex_e0 (fun _ _ => 5) ex_rsetup_ok ltac:(lia)
      (fun _ _ _ => 0%R) (fun _ _ _ => 0%R) (fun _ => 1) (fun _ _ => 1%R) Sc [fun _ => 1%R] [fun _ _ => 1%R] (fun _ _ => 5%R) [1; 0] ex_order
      ltac:(constructor; auto))) 0) as K. cbv zeta in K.
    etransitivity; [apply K|]. unfold serial_scalar. apply rsum_zero. intros e _. apply rsum_zero. intros q _.
    rewrite error_sqr_spec by lia. change (zseq 0 1) with [0]. unfold rsum at 1, shape_table. cbn [map fold_right Z.leb Z.compare].
    change (clip 2 0 4 <=? 1) with false. cbv iota. match goal with |- context [rsum ?f (zseq 0 _)] => rewrite (rsum_zero _ f) by (intros; cbv beta; ring) end. cbn. ring. }
  rewrite EF. intros E.
  match type of E with _ = sqrt ?s => assert (P : s = 27%R) by (cbv -[Rplus Rminus Rmult Rdiv Rinv Ropp IZR R]; lra); rewrite P in E end.
  assert (Q : (0 < sqrt 27)%R) by (apply sqrt_lt_R0; lra). lra.
Qed.
(** Negative indices are rejected. *)
Theorem C87_negative_partial : forall size G dim dof elems mapping nen npts JW order shape k vecU Exact L0 ranks, k < 0 ->
  compute_error_norm size G dim dof elems mapping nen npts JW order shape k vecU Exact L0 ranks = Fails ErrRange.
Proof. intros. unfold compute_error_norm. replace (k <? 0) with true by lia. reflexivity. Qed.

Example C86_example (U W : Z -> R) :=
  C86_triangle Rord exact_g2 exact_g3 (2^31-1) 2 1 ex_raxes [(-1)%Z] ex_rLY 1 ex_e0 (fun _ _ => 5) ex_rsetup_ok ltac:(lia)
    (fun _ => 3) (fun _ _ => 1%R) 2 (fun _ _ _ _ => 1%R) (fun _ _ => 5%R) [1; 0] ex_order ltac:(intros; lra) 1 U W.
Example C87_example : clip 7 0 4 = 4 /\ intpow_at 3 4 = Some 81.
Proof. split; reflexivity. Qed.

Print Assumptions C86_error_norm.
Print Assumptions C86_zero.
Print Assumptions C86_triangle.
Print Assumptions C86_homogeneous.
Print Assumptions C87_fifth_derivative_refuted.
Print Assumptions C87_overflow_refuted.
Print Assumptions C87_order_refuted.
Print Assumptions C87_negative_partial.
