(** Positive definite assembled matrices. *)
From Coq Require Import ZArith List Bool Lia Reals Lra Permutation.
From Coq Require Import ZifyBool ZifyNat.
From Verif Require Import Prelude RealOrd AxisModel AxisSpec AxisInitModel AxisProofs PartModel PartSpec PartProofs SetupModel SetupProofs SetupProps GridModel GridSpec GridProofs GridSetup GridProps
  ElemModel ElemProofs BasModel BCModel BCSpec BCProofs BCProofs2 DrvSpec DrvProofs DrvProofs2 RuleModel RuleSpec MapModel MapSpec MapProofs TabModel TabSpec TabProofs TabProofs2 TabProofs3 TabProofs4 TabProofs5 TabProofs6 PcSpec PcProofs.
From Verif Require Import ElemSpec Box.
Import ListNotations.
Open Scope Z_scope.

Lemma faces_in dim d s : In (d, s) (faces dim) <-> 0 <= d < dim /\ (s = 0 \/ s = 1).
Proof.
  unfold faces. rewrite in_flat_map. split.
  - intros (x & Hx & Hi). apply in_zseq in Hx. cbn in Hi. destruct Hi as [E|[E|[]]]; injection E as <- <-; split; auto; lia.
  - intros (Hd & Hs). exists d. split; [apply in_zseq; lia|]. cbn. destruct Hs as [ -> | -> ]; auto.
Qed.
Lemma pieces_touch dim nel visit e f : In f (pieces dim nel visit e) -> touches dim nel e f.
Proof.
  unfold pieces. rewrite in_app_iff, in_map_iff. intros [((d & s) & <- & Hi)|[ <- |[]]]; [|exact I].
  apply filter_In in Hi. destruct Hi as (Hf & Hv). apply faces_in in Hf. cbn [fst snd touches] in *. apply andb_true_iff in Hv. destruct Hv as (_ & Hc). apply Z.eqb_eq in Hc. split; [tauto|]. exact Hc.
Qed.
Lemma interior_piece dim nel visit e : In Interior (pieces dim nel visit e).
Proof. unfold pieces. apply in_or_app. right. left. auto. Qed.
(** A node on a face with a value for component c is prescribed. *)
Lemma lookup_in c l : In c (map fst l) -> exists v : R, lookup c l = Some v.
Proof.
  unfold lookup. induction l as [|[k v] l IH]; [intros []|]. cbn [map fst In find]. intros H. destruct (k =? c) eqn:E; [eexists; reflexivity|]. apply IH. destruct H; [lia|auto].
Qed.
Lemma prescribed_on_face dim per N value T t c d s : 0 <= d < dim -> s = 0 \/ s = 1 -> per d = false ->
  coord t d = (if s =? 0 then 0 else N d - 1) -> In c (map fst (value d s)) -> node_prescribed dim per N value T t c <> None.
Proof.
  intros Hd Hs Hp Hc Hv. destruct (lookup_in c _ Hv) as (v & EV).
  assert (HI : In (d, s) (faces dim)) by (apply faces_in; auto). unfold node_prescribed.
  set (F := fun cur f => _).
  assert (K : forall l cur, cur <> None -> fold_left F l cur <> None).
  { induction l as [|f l IH]; intros cur Hn; cbn [fold_left]; auto. apply IH. unfold F. destruct (node_on_face per N t f); auto. destruct (lookup c (value (fst f) (snd f))); [discriminate|auto]. }
  enough (G : forall l cur, In (d, s) l -> fold_left F l cur <> None) by (apply G; auto).
  clear HI. induction l as [|f l IH]; intros cur HI; [destruct HI|]. cbn [fold_left]. destruct HI as [ -> |HI]; [|apply IH; auto].
  apply K. unfold F. cbn [fst snd]. unfold node_on_face. rewrite Hp. rewrite Hc, Z.eqb_refl. cbn [negb andb]. rewrite EV. discriminate.
Qed.

Section Galerkin.
  Variables dim order dof : Z.
  Hypothesis Hdim : 1 <= dim <= 3.
  Hypothesis Horder : 1 <= order.
  Hypothesis Hdof : 1 <= dof.
  Variable axes : Z -> axis Rord.
  Hypothesis Hax : forall i, 0 <= i < dim -> axis_ready (axes i) /\ ends_nonempty (ax_p (axes i)) (ax_m (axes i)) (ax_U (axes i)).
  Variable CB : Z -> Z -> R -> Z -> Z -> (Z -> R) -> Z -> Z -> R.
  Variable BT : Z -> btable.
  Let N := fun d => if d <? dim then ax_nnp (axes d) else 1.
  Let nel := fun d => if d <? dim then ax_nel (axes d) else 1.
  Let nen := fun d => if d <? dim then ax_p (axes d) + 1 else 1.
  Let first := fun e d => if d <? dim then span_at (axes d) (coord e d) - ax_p (axes d) else 0.
  Hypothesis HT : forall i, 0 <= i < dim -> table_ok (CB i) (ax_p (axes i)) (ax_m (axes i)) (ax_U (axes i)) (spans_of (axes i)) (BT i).
  Hypothesis H1 : forall i, dim <= i < 3 -> quad_size (BT i) 0 = 1.
  Hypothesis HCB : forall i k v, 0 <= i < dim -> exists ndu0 a0 ders0 l0 r0, forall o a, 0 <= a <= ax_p (axes i) ->
    CB i k v (ax_p (axes i)) (Z.min (ax_p (axes i)) 4) (ax_U (axes i)) o a =
    basis_bspline k v (ax_p (axes i)) (Z.min (ax_p (axes i)) 4) (ax_U (axes i)) ndu0 a0 ders0 l0 r0 o a.
  Hypothesis HP : forall i, 0 <= i < dim -> points_ok (ax_p (axes i)) (ax_U (axes i)) (spans_of (axes i)) (BT i).
  Variables (sqrt : R -> R) (rationalW : triple -> option (Z -> R)) (geometryX : triple -> option (Z -> Z -> R)).
  Variables (oldN oldX oldS : triple -> form_visit -> Z -> nders) (oldE : triple -> form_visit -> Z -> inv_map).
  Local Notation shape e q := (tab_shape dim order BT rationalW geometryX oldN oldX oldS oldE e Interior q).
  Local Notation inv e q := (tab_inv dim order BT rationalW geometryX oldN oldX oldS oldE e Interior q).
  Hypothesis Hsqrt : forall x, (0 <= sqrt x)%R.
  Hypothesis HW : forall e W, in_box zero3 nel e -> rationalW e = Some W -> forall a, 1 <= a <= vol nen -> (0 < W a)%R.
  Hypothesis HX : forall e q, in_box zero3 nel e -> geometryX e <> None -> 0 <= q < tab_npts BT e Interior -> (0 < e_det (inv e q))%R.
  Variable visit : Z -> Z -> bool.
  Variable npts : triple -> form_visit -> Z.
  Variable JW : triple -> form_visit -> Z -> R.
  Hypothesis Htab : forall e f, in_box zero3 nel e -> touches dim nel e f ->
    npts e f = tab_npts BT e f /\ forall q, JW e f q = tab_JW dim order BT sqrt rationalW geometryX oldN oldX oldS oldE e f q.
  Variable presc : triple -> Z -> option R.
  Variable g : triple -> form_visit -> Z -> Z -> R.
  Let n := vol nen * dof.
  Hypothesis Hface : forall e axis side q, in_box zero3 nel e -> In (Face axis side) (pieces dim nel visit e) -> 0 <= q < npts e (Face axis side) ->
    psd n (rows n (g e (Face axis side) q)).
  Hypothesis HN : forall d, 0 <= d < 3 -> 1 <= N d.

  Lemma gal_nen d : 0 <= d < 3 -> 1 <= nen d.
  Proof. intros Hd. unfold nen. destruct (d <? dim) eqn:L; [|lia]. destruct (Hax d ltac:(lia)) as ((l & Hl & ((Hp & _) & _)) & _). lia. Qed.
  Lemma gal_JW e f q : In e (box zero3 nel) -> In f (pieces dim nel visit e) -> 0 <= q < npts e f -> (0 <= JW e f q)%R /\ (f = Interior -> (0 < JW e f q)%R).
  Proof.
    intros He Hf Hq. apply In_box in He. pose proof (pieces_touch _ _ _ _ _ Hf) as Ht. destruct (Htab e f He Ht) as (E1 & E2). rewrite E1 in Hq. rewrite E2.
    destruct f as [axis side|].
    - split; [|discriminate]. exact (JW_face dim Hdim axes Hax CB BT HT H1 order sqrt rationalW geometryX oldN oldX oldS oldE e axis side q Hsqrt He Ht Hq).
    - assert (P : (0 < tab_JW dim order BT sqrt rationalW geometryX oldN oldX oldS oldE e Interior q)%R).
      { apply (JW_interior dim Hdim axes Hax CB BT HT H1); auto. }
      split; [lra|auto].
  Qed.
  Section Interior.
    Hypothesis Hint : forall e q, in_box zero3 nel e -> 0 <= q < npts e Interior -> psd n (rows n (g e Interior q)).
    Lemma gal_psd e f q : In e (box zero3 nel) -> In f (pieces dim nel visit e) -> 0 <= q < npts e f -> psd n (rows n (g e f q)).
    Proof. intros He Hf Hq. apply In_box in He. destruct f as [axis side|]; [apply Hface|apply Hint]; auto. Qed.
    Lemma gal_symmetric t c u d : 0 <= c < dof -> 0 <= d < dof ->
      jacobian dim dof N nen nel first visit npts JW presc g t c u d = jacobian dim dof N nen nel first visit npts JW presc g u d t c.
    Proof.
      intros Hc Hd. apply (jac_symmetric dim dof N nen nel first visit npts JW presc Hdof gal_nen HN); auto.
      intros e f q i j He Hf Hq Hi Hj. exact (proj1 (gal_psd e f q He Hf Hq) i j Hi Hj).
    Qed.
    Lemma gal_spd size G A : grid_world size dof N G ->
      (forall t c u d, in_box zero3 N t -> 0 <= c < dof -> in_box zero3 N u -> 0 <= d < dof ->
        A (dof * ao size G (lin N t) + c) (dof * ao size G (lin N u) + d) = jacobian dim dof N nen nel first visit npts JW presc g t c u d) ->
      (forall x : nodal, (forall t c, presc t c <> None -> x t c = 0%R) ->
        (forall e q, in_box zero3 nel e -> 0 <= q < npts e Interior -> qform n (rows n (g e Interior q)) (earr dof N nen first e x) (earr dof N nen first e x) = 0%R) ->
        forall t c, in_box zero3 N t -> 0 <= c < dof -> x t c = 0%R) ->
      spd (dof * vol N) A.
    Proof.
      intros W HA HD. apply (spd_nodal size dof N G W A _ HA gal_symmetric).
      - apply (jac_nonneg dim dof N nen nel first visit npts JW presc Hdof gal_nen HN g).
        + intros e f q He Hf Hq. apply gal_JW; auto.
        + intros e f q He Hf Hq X. exact (proj2 (gal_psd e f q He Hf Hq) X).
        + exact (grid_cover dim axes Hax).
      - apply (jac_definite dim dof N nen nel first visit npts JW presc Hdof gal_nen HN g).
        + intros e f q He Hf Hq. apply gal_JW; auto.
        + intros e f q He Hf Hq X. exact (proj2 (gal_psd e f q He Hf Hq) X).
        + exact (grid_cover dim axes Hax).
        + intros x Hx Hp. apply HD; auto. intros e q He Hq. apply In_box in He. specialize (Hp e Interior q He (interior_piece _ _ _ _) Hq). apply Rmult_integral in Hp. destruct Hp as [Hp|Hp]; [exact Hp|].
          pose proof (proj2 (gal_JW e Interior q He (interior_piece _ _ _ _) Hq) eq_refl). lra.
    Qed.
  End Interior.

  Lemma gal_earr x e a c : in_box zero3 nen a -> 0 <= c < dof -> earr dof N nen first e x (lin nen a * dof + c) = x (elem_node N first e a) c.
  Proof. exact (earr_at dof N nen nel first visit npts JW presc (fun _ _ _ => 0%R) Hdof gal_nen HN x e a c). Qed.
  Lemma gal_cover t : in_box zero3 N t -> exists e a, In e (box zero3 nel) /\ In a (box zero3 nen) /\ elem_node N first e a = t.
  Proof. exact (grid_cover dim axes Hax t). Qed.

  Lemma gal_values size G A : grid_world size dof N G ->
    (forall e q, in_box zero3 nel e -> 0 <= q < npts e Interior -> definite_values dof nen (n0 (shape e q)) (g e Interior q)) ->
    (forall t c u d, in_box zero3 N t -> 0 <= c < dof -> in_box zero3 N u -> 0 <= d < dof ->
      A (dof * ao size G (lin N t) + c) (dof * ao size G (lin N u) + d) = jacobian dim dof N nen nel first visit npts JW presc g t c u d) ->
    spd (dof * vol N) A.
  Proof.
    intros W HD HA. apply (gal_spd (fun e q He Hq => proj1 (HD e q He Hq)) size G A W HA).
    intros x _ HZ t c Ht Hc. destruct (gal_cover t Ht) as (e & a & He & Ha & <-). apply In_box in He, Ha.
    destruct (Htab e Interior He I) as (EN & _).
    apply (values_zero dim order Hdim axes Hax CB BT HT H1 HCB HP rationalW geometryX oldN oldX oldS oldE HW e (fun a => x (elem_node N first e a) c) He); auto.
    intros q Hq. rewrite <- EN in Hq. destruct (HD e q He Hq) as (_ & K). pose proof (K _ (HZ e q He Hq) c Hc) as E. unfold pt_value in E. etransitivity; [|exact E]. apply rsum_ext. intros b Hb. apply In_box in Hb.
    fold nen. rewrite gal_earr by auto. reflexivity.
  Qed.
  Lemma gal_grads size G A : grid_world size dof N G -> (forall e, in_box zero3 nel e -> rationalW e = None) ->
    (forall e q, in_box zero3 nel e -> 0 <= q < npts e Interior -> definite_grads dim dof nen (n1 (shape e q)) (g e Interior q)) ->
    (forall c, 0 <= c < dof -> exists t, in_box zero3 N t /\ presc t c <> None) ->
    (forall t c u d, in_box zero3 N t -> 0 <= c < dof -> in_box zero3 N u -> 0 <= d < dof ->
      A (dof * ao size G (lin N t) + c) (dof * ao size G (lin N u) + d) = jacobian dim dof N nen nel first visit npts JW presc g t c u d) ->
    spd (dof * vol N) A.
  Proof.
    intros W HR HD HF HA. apply (gal_spd (fun e q He Hq => proj1 (HD e q He Hq)) size G A W HA).
    intros x Hx HZ t c Ht Hc. destruct (HF c Hc) as (t0 & Ht0 & Hp). rewrite <- (Hx t0 c Hp).
    apply (all_nodes dim axes Hax (fun t => x t c)); auto. intros e a He Ha. apply In_box in He, Ha. destruct (Htab e Interior He I) as (EN & _).
    refine (grads_const dim order Hdim Horder axes Hax CB BT HT H1 HCB HP rationalW geometryX oldN oldX oldS oldE HW HX e (fun a => x (elem_node N first e a) c) He (HR e He) _ a Ha).
    intros q i Hq Hi. rewrite <- EN in Hq. destruct (HD e q He Hq) as (_ & K). pose proof (K _ (HZ e q He Hq) c (i+1) Hc ltac:(lia)) as E. unfold pt_grad in E. etransitivity; [|exact E]. apply rsum_ext. intros b Hb. apply In_box in Hb.
    fold nen. rewrite gal_earr by auto. reflexivity.
  Qed.
End Galerkin.
