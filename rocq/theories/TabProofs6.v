(** Quadrature weights, the quadratic form of a point, and global numbering. *)
From Coq Require Import ZArith List Bool Lia Reals Lra Permutation.
From Coq Require Import ZifyBool ZifyNat.
From Verif Require Import Prelude RealOrd AxisModel AxisSpec AxisInitModel AxisProofs PartModel PartSpec PartProofs SetupModel SetupProofs SetupProps GridModel GridSpec GridProofs GridSetup GridProps
  ElemModel ElemProofs BCModel BCSpec BCProofs BCProofs2 DrvSpec DrvProofs DrvProofs2 RuleModel RuleSpec MapModel MapSpec MapProofs TabModel TabSpec TabProofs TabProofs2 TabProofs3 TabProofs4 TabProofs5 PcSpec PcProofs.
From Verif Require Import ElemSpec Box.
Import ListNotations.
Open Scope Z_scope.

(** * Weights *)
Section Weights.
  Variable dim : Z.
  Hypothesis Hdim : 1 <= dim <= 3.
  Variable axes : Z -> axis Rord.
  Hypothesis Hax : forall i, 0 <= i < dim -> axis_ready (axes i) /\ ends_nonempty (ax_p (axes i)) (ax_m (axes i)) (ax_U (axes i)).
  Variable CB : Z -> Z -> R -> Z -> Z -> (Z -> R) -> Z -> Z -> R.
  Variable BT : Z -> btable.
  Let nel := fun d => if d <? dim then ax_nel (axes d) else 1.
  Hypothesis HT : forall i, 0 <= i < dim -> table_ok (CB i) (ax_p (axes i)) (ax_m (axes i)) (ax_U (axes i)) (spans_of (axes i)) (BT i).
  Hypothesis H1 : forall i, dim <= i < 3 -> quad_size (BT i) 0 = 1.

  Lemma J_pos e f i : in_box zero3 nel e -> 0 <= i < dim -> (0 < d_J (dir_of BT e f i))%R.
  Proof.
    intros He Hi. pose proof (coord_in nel e i He ltac:(lia)) as C. unfold nel in C. replace (i <? dim) with true in C by lia.
    assert (A : (0 < bq_detJac (bt_q (BT i)) (coord e i))%R).
    { destruct (HT i Hi) as (_ & T2 & _). destruct (T2 (coord e i)) as (_ & TJ & _); [rewrite (fld_len dim axes Hax) by auto; auto|].
      rewrite TJ. rewrite (fld_nth dim axes Hax i (coord e i) Hi). destruct (fld_elem dim Hdim axes Hax CB BT HT H1 e i He Hi) as (_ & _ & E). lra. }
    destruct f as [axis side|]; cbn [dir_of]; [destruct (i =? axis); cbn; auto; lra|cbn; auto].
  Qed.
  Lemma detJ_pos e f q : in_box zero3 nel e -> (0 < tab_detJ dim BT e f q)%R.
  Proof.
    intros He. unfold tab_detJ. destruct (dim =? 1) eqn:D1; [apply J_pos; auto; lia|]. destruct (dim =? 2) eqn:D2.
    - apply Rmult_lt_0_compat; apply J_pos; auto; lia.
    - repeat apply Rmult_lt_0_compat; apply J_pos; auto; lia.
  Qed.
  Lemma weight_pos e f q : in_box zero3 nel e -> touches dim nel e f -> 0 <= q < tab_npts BT e f -> (0 < tab_weight dim BT e f q)%R.
  Proof.
    intros He Hf Hq. pose proof (fld_ok dim Hdim axes Hax CB BT HT H1 e f He Hf) as OK.
    assert (K : forall i, 0 <= i < dim -> (0 < d_w (dir_of BT e f i) (point_index dim BT e f q i))%R).
    { intros i Hi. exact (dweight_pos dim Hdim _ _ _ _ CB BT (fld_p0 dim axes Hax CB BT HT H1) HT H1 (fld_ends dim axes Hax) e f q i OK Hq Hi). }
    unfold tab_weight. destruct (dim =? 1) eqn:D1; [apply K; lia|]. destruct (dim =? 2) eqn:D2.
    - apply Rmult_lt_0_compat; apply K; lia.
    - repeat apply Rmult_lt_0_compat; apply K; lia.
  Qed.

  Variables (order : Z) (sqrt : R -> R) (rationalW : triple -> option (Z -> R)) (geometryX : triple -> option (Z -> Z -> R)).
  Variables (oldN oldX oldS : triple -> form_visit -> Z -> nders) (oldE : triple -> form_visit -> Z -> inv_map).
  Local Notation JW := (tab_JW dim order BT sqrt rationalW geometryX oldN oldX oldS oldE).
  Local Notation inv e q := (tab_inv dim order BT rationalW geometryX oldN oldX oldS oldE e Interior q).
  Lemma JW_interior e q : in_box zero3 nel e -> 0 <= q < tab_npts BT e Interior -> (geometryX e <> None -> (0 < e_det (inv e q))%R) -> (0 < JW e Interior q)%R.
  Proof.
    intros He Hq HX. unfold tab_JW, tab_detJac. pose proof (detJ_pos e Interior q He). pose proof (weight_pos e Interior q He I Hq).
    destruct (geometryX e) eqn:EX; [|apply Rmult_lt_0_compat; auto]. apply Rmult_lt_0_compat; auto. apply Rmult_lt_0_compat; auto. apply HX. discriminate.
  Qed.
  Lemma JW_face e axis side q : (forall x, (0 <= sqrt x)%R) -> in_box zero3 nel e -> touches dim nel e (Face axis side) -> 0 <= q < tab_npts BT e (Face axis side) -> (0 <= JW e (Face axis side) q)%R.
  Proof.
    intros Hs He Hf Hq. unfold tab_JW, tab_detJac. pose proof (detJ_pos e (Face axis side) q He). pose proof (weight_pos e (Face axis side) q He Hf Hq).
    assert (S : (0 <= tab_detS dim order BT sqrt rationalW geometryX oldN oldX oldS oldE e (Face axis side) q)%R).
    { unfold tab_detS. destruct (geometryX e); [|lra]. unfold get_normal. destruct (dim =? 3); [cbn [fst]; apply Hs|]. destruct (dim =? 2); [cbn [fst]; apply Hs|]. cbn [fst]. lra. }
    destruct (geometryX e) eqn:EX; [|apply Rmult_le_pos; lra]. apply Rmult_le_pos; [|lra]. apply Rmult_le_pos; [lra|exact S].
  Qed.
End Weights.

(** * Diffusion and reaction *)
Lemma rsum_square {A} (f : A -> R) l : (rsum f l * rsum f l)%R = rsum (fun x => rsum (fun y => f x * f y)%R l) l.
Proof. rewrite rsum_mult_r. apply rsum_ext. intros x _. rewrite <- rsum_scal. reflexivity. Qed.
Lemma qform_zero n A : qform n A (fun _ => 0%R) (fun _ => 0%R) = 0%R.
Proof. unfold qform. apply rsum_zero. intros i _. apply rsum_zero. intros j _. ring. Qed.
Lemma qform_ext n A x y : (forall i, 0 <= i < n -> x i = y i) -> qform n A x x = qform n A y y.
Proof. intros H. unfold qform. apply rsum_ext. intros i Hi. apply in_zseq in Hi. apply rsum_ext. intros j Hj. apply in_zseq in Hj. rewrite !H by lia. reflexivity. Qed.
Lemma spd_zero n A x : spd n A -> qform n A x x = 0%R -> forall i, 0 <= i < n -> x i = 0%R.
Proof. intros (_ & P) E i Hi. destruct (Req_dec (x i) 0) as [|D]; auto. exfalso. specialize (P x ltac:(eauto)). lra. Qed.
Lemma spd_psd n A : spd n A -> psd n A.
Proof.
  intros (S & P). split; auto. intros x. destruct (Rle_dec 0 (qform n A x x)) as [|D]; auto. exfalso.
  assert (Z0 : forall i, 0 <= i < n -> x i = 0%R). { intros i Hi. destruct (Req_dec (x i) 0); auto. exfalso. specialize (P x ltac:(eauto)). lra. }
  apply D. rewrite (qform_ext n A x (fun _ => 0%R)) by auto. rewrite qform_zero. lra.
Qed.

Section Dr.
  Variables (dim dof : Z) (nen : Z -> Z) (phi : Z -> R) (dphi : Z -> Z -> R) (kap : Z -> Z -> R) (sig : R) (K : Z -> R).
  Hypothesis Hdim : 1 <= dim.
  Hypothesis Hdof : 1 <= dof.
  Hypothesis Hnen : forall d, 0 <= d < 3 -> 1 <= nen d.
  Hypothesis HK : diffusion_reaction dim dof nen phi dphi kap sig K.
  Let n := vol nen * dof.
  Local Notation V X c := (pt_value dof nen phi X c).
  Local Notation Gr X c i := (pt_grad dof nen dphi X c i).

  Lemma dr_dofs (g : Z -> R) : rsum g (zseq 0 n) = rsum (fun t => rsum (fun c => g (lin nen t * dof + c)) (zseq 0 dof)) (box zero3 nen).
  Proof. exact (rsum_dofs (fun _ => 1) nen (fun _ _ => 0) dof Hdof Hnen (fun _ => 1) ltac:(intros; lia) g). Qed.
  Lemma dr_index i : 0 <= i < n -> exists a c, in_box zero3 nen a /\ 0 <= c < dof /\ i = lin nen a * dof + c.
  Proof.
    intros Hi. exists (unlin nen (i / dof)), (i mod dof). unfold n in Hi.
    assert (Q : 0 <= i / dof < vol nen) by (split; [apply Z.div_pos; lia|apply Z.div_lt_upper_bound; lia]).
    pose proof (Hnen 0 ltac:(lia)). pose proof (Hnen 1 ltac:(lia)). pose proof (Hnen 2 ltac:(lia)).
    destruct (lin_unlin nen (i / dof)) as (U1 & U2); [lia|lia|lia|auto|]. rewrite U1. pose proof (Z.mod_pos_bound i dof ltac:(lia)). pose proof (Z.div_mod i dof ltac:(lia)). split; [auto|split; [auto|lia]].
  Qed.
  Lemma dr_form X : qform n (rows n K) X X =
    rsum (fun c => qform dim kap (fun i => Gr X c (i+1)) (fun i => Gr X c (i+1)) + sig * (V X c * V X c))%R (zseq 0 dof).
  Proof.
    set (P := fun (c : Z) (a b : triple) => (rsum (fun i => rsum (fun j => dphi (i+1)%Z (lin nen a + 1)%Z * kap i j * dphi (j+1)%Z (lin nen b + 1)%Z) (zseq 0 dim)) (zseq 0 dim)
       + sig * phi (lin nen a + 1)%Z * phi (lin nen b + 1)%Z)%R).
    transitivity (rsum (fun a => rsum (fun c => rsum (fun b => X (lin nen a * dof + c)%Z * P c a b * X (lin nen b * dof + c)%Z)%R (box zero3 nen)) (zseq 0 dof)) (box zero3 nen)).
    - unfold qform. rewrite dr_dofs. apply rsum_ext. intros a Ha. apply In_box in Ha. apply rsum_ext. intros c Hc. apply in_zseq in Hc.
      rewrite dr_dofs. apply rsum_ext. intros b Hb. apply In_box in Hb.
      rewrite (rsum_single _ _ _ c); [|apply NoDup_zseq|apply in_zseq; lia|].
      + unfold n. rewrite HK by (auto; lia). rewrite Z.eqb_refl. reflexivity.
      + intros d Hd Hn. apply in_zseq in Hd. unfold n. rewrite HK by (auto; lia). replace (c =? d) with false by lia. ring.
    - rewrite rsum_comm. apply rsum_ext. intros c _.
      transitivity (rsum (fun a => rsum (fun b => rsum (fun i => rsum (fun j => (X (lin nen a * dof + c)%Z * dphi (i+1)%Z (lin nen a + 1)%Z) * kap i j * (X (lin nen b * dof + c)%Z * dphi (j+1)%Z (lin nen b + 1)%Z))%R (zseq 0 dim)) (zseq 0 dim)) (box zero3 nen)) (box zero3 nen)
        + rsum (fun a => rsum (fun b => sig * ((X (lin nen a * dof + c)%Z * phi (lin nen a + 1)%Z) * (X (lin nen b * dof + c)%Z * phi (lin nen b + 1)%Z)))%R (box zero3 nen)) (box zero3 nen))%R.
      + rewrite <- rsum_plus. apply rsum_ext. intros a _. rewrite <- rsum_plus. apply rsum_ext. intros b _. unfold P.
        rewrite Rmult_plus_distr_l, Rmult_plus_distr_r. f_equal; [|ring]. rewrite <- rsum_scal. rewrite rsum_mult_r. apply rsum_ext. intros i _. rewrite <- rsum_scal. rewrite rsum_mult_r. apply rsum_ext. intros j _. ring.
      + f_equal.
        * unfold qform, pt_grad.
          rewrite (rsum_ext _ _ (fun a => rsum (fun i => rsum (fun j => (X (lin nen a * dof + c)%Z * dphi (i+1)%Z (lin nen a + 1)%Z) * kap i j * Gr X c (j+1)%Z)%R (zseq 0 dim)) (zseq 0 dim))).
          2:{ intros a _. rewrite rsum_comm. apply rsum_ext. intros i _. rewrite rsum_comm. apply rsum_ext. intros j _. unfold pt_grad. rewrite <- rsum_scal. reflexivity. }
          rewrite rsum_comm. apply rsum_ext. intros i _. rewrite rsum_comm. apply rsum_ext. intros j _. rewrite rsum_mult_r. rewrite rsum_mult_r. reflexivity.
        * unfold pt_value. rewrite rsum_square. rewrite <- rsum_scal. apply rsum_ext. intros a _. rewrite <- rsum_scal. reflexivity.
  Qed.
  Lemma dr_symmetric : PcSpec.symmetric dim kap -> PcSpec.symmetric n (rows n K).
  Proof.
    intros S i j Hi Hj. destruct (dr_index i Hi) as (a & c & Ha & Hc & ->). destruct (dr_index j Hj) as (b & d & Hb & Hd & ->).
    unfold n. rewrite !HK by auto. rewrite (Z.eqb_sym d c). destruct (c =? d); auto. f_equal; [|ring].
    rewrite rsum_comm. apply rsum_ext. intros i' Hi'. apply in_zseq in Hi'. apply rsum_ext. intros j' Hj'. apply in_zseq in Hj'. rewrite (S i' j') by lia. ring.
  Qed.
  Lemma dr_psd : psd dim kap -> (0 <= sig)%R -> psd n (rows n K).
  Proof.
    intros (S & P) Hs. split; [apply dr_symmetric; auto|]. intros X. rewrite dr_form. apply rsum_nonneg. intros c _. apply Rplus_le_le_0_compat; [apply P|]. apply Rmult_le_pos; auto. apply Rle_0_sqr.
  Qed.
  Lemma dr_terms X : psd dim kap -> (0 <= sig)%R -> qform n (rows n K) X X = 0%R -> forall c, 0 <= c < dof ->
    qform dim kap (fun i => Gr X c (i+1)) (fun i => Gr X c (i+1)) = 0%R /\ (sig * (V X c * V X c))%R = 0%R.
  Proof.
    intros (S & P) Hs E c Hc. rewrite dr_form in E.
    assert (Q : forall c, (0 <= sig * (V X c * V X c))%R) by (intros; apply Rmult_le_pos; auto; apply Rle_0_sqr).
    pose proof (rsum_nonneg_zero _ (zseq 0 dof) ltac:(intros x _; apply Rplus_le_le_0_compat; [apply P|apply Q]) E c ltac:(apply in_zseq; lia)) as Z0. cbv beta in Z0.
    pose proof (P (fun i => Gr X c (i+1))). pose proof (Q c). lra.
  Qed.
  Lemma dr_values : psd dim kap -> (0 < sig)%R -> definite_values dof nen phi K.
  Proof.
    intros HP Hs. split; [apply dr_psd; auto; lra|]. intros X E c Hc. destruct (dr_terms X HP ltac:(lra) E c Hc) as (_ & Q). apply Rmult_integral in Q. destruct Q as [Q|Q]; [lra|]. apply Rsqr_0_uniq. exact Q.
  Qed.
  Lemma dr_grads : spd dim kap -> (0 <= sig)%R -> definite_grads dim dof nen dphi K.
  Proof.
    intros HP Hs. pose proof (spd_psd _ _ HP) as HP'. split; [apply dr_psd; auto; lra|]. intros X E c i Hc Hi. destruct (dr_terms X HP' ltac:(lra) E c Hc) as (Q & _).
    pose proof (spd_zero _ _ _ HP Q (i-1) ltac:(lia)) as Z0. cbv beta in Z0. replace (i - 1 + 1) with i in Z0 by lia. exact Z0.
  Qed.
End Dr.

(** * Global numbering *)
Section Global.
  Variables (size dof : Z) (N : Z -> Z) (G : Z -> grid).
  Hypothesis W : grid_world size dof N G.
  Let ix := fun (t : triple) (c : Z) => dof * ao size G (lin N t) + c.

  Lemma ix_surj i : 0 <= i < dof * vol N -> exists t c, in_box zero3 N t /\ 0 <= c < dof /\ ix t c = i.
  Proof.
    intros Hi. pose proof (w_bs _ _ _ _ W) as Hb. destruct (C15_numbering_is_permutation size dof N G W) as (_ & _ & P & _).
    assert (Q : 0 <= i / dof < N 0 * (N 1 * N 2)).
    { unfold vol in Hi. split; [apply Z.div_pos; lia|apply Z.div_lt_upper_bound; lia]. }
    destruct (P (i / dof) Q) as (t & (Ht & Et) & _). exists t, (i mod dof). unfold ix. rewrite Et. pose proof (Z.mod_pos_bound i dof ltac:(lia)). pose proof (Z.div_mod i dof ltac:(lia)). auto.
  Qed.
  Lemma rsum_ix (g : Z -> R) : rsum g (zseq 0 (dof * vol N)) = rsum (fun t => rsum (fun c => g (ix t c)) (zseq 0 dof)) (box zero3 N).
  Proof.
    pose proof (w_bs _ _ _ _ W) as Hb.
    rewrite (rsum_ext _ (fun t => rsum (fun c => g (ix t c)) (zseq 0 dof)) (fun t => rsum g (map (ix t) (zseq 0 dof)))) by (intros; rewrite rsum_map; reflexivity).
    rewrite <- rsum_flat_map. apply rsum_perm. apply NoDup_Permutation.
    - apply NoDup_zseq.
    - apply NoDup_flat_map.
      + apply NoDup_box.
      + intros t Ht. apply NoDup_map_inj; [|apply NoDup_zseq]. intros c d Hc Hd E. unfold ix in E. lia.
      + intros t u x Ht Hu Hx Hy. apply In_box in Ht, Hu. apply in_map_iff in Hx, Hy. destruct Hx as (c & <- & Hc), Hy as (d & E & Hd). apply in_zseq in Hc, Hd. unfold ix in E.
        assert (A : ao size G (lin N t) = ao size G (lin N u)) by nia.
        apply (ao_inj _ _ _ _ W) in A; try (apply lin_in_range; auto). eapply lin_inj; eauto.
    - intros i. rewrite in_zseq, in_flat_map. split.
      + intros Hi. destruct (ix_surj i ltac:(lia)) as (t & c & Ht & Hc & <-). exists t. split; [apply In_box; auto|]. apply in_map. apply in_zseq. lia.
      + intros (t & Ht & Hx). apply In_box in Ht. apply in_map_iff in Hx. destruct Hx as (c & <- & Hc). apply in_zseq in Hc. unfold ix.
        pose proof (ao_range _ _ _ _ W _ (lin_in_range N t Ht)). nia.
  Qed.
  Lemma spd_nodal (A : Z -> Z -> R) (J : triple -> Z -> triple -> Z -> R) :
    (forall t c u d, in_box zero3 N t -> 0 <= c < dof -> in_box zero3 N u -> 0 <= d < dof -> A (ix t c) (ix u d) = J t c u d) ->
    (forall t c u d, 0 <= c < dof -> 0 <= d < dof -> J t c u d = J u d t c) ->
    (forall x : nodal, (0 <= rsum (fun t => rsum (fun c => x t c * node_row N dof J x t c)%R (zseq 0 dof)) (box zero3 N))%R) ->
    (forall x : nodal, rsum (fun t => rsum (fun c => x t c * node_row N dof J x t c)%R (zseq 0 dof)) (box zero3 N) = 0%R ->
       forall t c, in_box zero3 N t -> 0 <= c < dof -> x t c = 0%R) ->
    spd (dof * vol N) A.
  Proof.
    intros HA HS HN H0. split.
    - intros i j Hi Hj. destruct (ix_surj i Hi) as (t & c & Ht & Hc & <-). destruct (ix_surj j Hj) as (u & d & Hu & Hd & <-). rewrite !HA by auto. apply HS; auto.
    - intros x (i & Hi & Hx). set (X := fun t c => x (ix t c)).
      assert (E : qform (dof * vol N) A x x = rsum (fun t => rsum (fun c => X t c * node_row N dof J X t c)%R (zseq 0 dof)) (box zero3 N)).
      { unfold qform. rewrite rsum_ix. apply rsum_ext. intros t Ht. apply In_box in Ht. apply rsum_ext. intros c Hc. apply in_zseq in Hc. rewrite rsum_ix. unfold node_row. rewrite <- rsum_scal.
        apply rsum_ext. intros u Hu. apply In_box in Hu. rewrite <- rsum_scal. apply rsum_ext. intros d Hd. apply in_zseq in Hd. rewrite HA by (auto; lia). unfold X. ring. }
      rewrite E. destruct (HN X) as [L|L]; auto. exfalso. destruct (ix_surj i Hi) as (t & c & Ht & Hc & <-). apply Hx. exact (H0 X (eq_sym L) t c Ht Hc).
  Qed.
End Global.
