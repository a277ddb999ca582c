(** The quadratic form of an assembled matrix. *)
From Coq Require Import ZArith List Bool Lia Reals Lra Permutation.
From Coq Require Import ZifyBool ZifyNat.
From Verif Require Import Prelude AxisModel AxisSpec SetupModel Box GridModel GridSpec GridProofs ElemModel ElemSpec ElemProofs
  BCModel BCSpec BCProofs BCProofs2 DrvModel DrvSpec DrvProofs DrvProofs2 PcSpec MapProofs.
From Verif Require Import Box.
Import ListNotations.
Open Scope Z_scope.

Lemma rsum_nonneg_zero {A} (f : A -> R) l : (forall x, In x l -> (0 <= f x)%R) -> rsum f l = 0%R -> forall x, In x l -> f x = 0%R.
Proof.
  intros H E x Hx. pose proof (rsum_elem A f l x H Hx). pose proof (H x Hx). lra.
Qed.
Lemma rsum_if {A} (b : bool) (f : A -> R) l : rsum (fun x => if b then f x else 0%R) l = (if b then rsum f l else 0%R).
Proof. destruct b; auto. apply rsum_zero. auto. Qed.

Section Gram.
  Variables dim dof : Z.
  Variables N nen nel : Z -> Z.
  Variable first : triple -> Z -> Z.
  Variable visit : Z -> Z -> bool.
  Variable npts : triple -> form_visit -> Z.
  Variable JW : triple -> form_visit -> Z -> R.
  Variable presc : triple -> Z -> option R.
  Hypothesis Hdof : 1 <= dof.
  Hypothesis Hnen : forall d, 0 <= d < 3 -> 1 <= nen d.
  Hypothesis HN : forall d, 0 <= d < 3 -> 1 <= N d.
  Let n := vol nen * dof.
  Local Notation node := (elem_node N first).
  Local Notation earr := (earr dof N nen first).
  Local Notation scatter := (scatter N nen nel first).
  Local Notation integral := (integral dim nel visit npts JW).
  Local Notation plain g := (plain_matrix dim dof N nen nel first visit npts JW g).
  Local Notation jac g := (jacobian dim dof N nen nel first visit npts JW presc g).

  Lemma node_in e a : in_box zero3 N (node e a).
  Proof.
    unfold elem_node. destruct (tadd (first e) a) as [[i j] k]. unfold modbox, in_box, zero3.
    pose proof (Z.mod_pos_bound i (N 0) ltac:(specialize (HN 0); lia)). pose proof (Z.mod_pos_bound j (N 1) ltac:(specialize (HN 1); lia)).
    pose proof (Z.mod_pos_bound k (N 2) ltac:(specialize (HN 2); lia)). lia.
  Qed.
  Lemma scatter_form (x : triple -> R) G :
    rsum (fun t => x t * scatter G t)%R (box zero3 N) = rsum (fun e => rsum (fun a => x (node e a) * G e a)%R (box zero3 nen)) (box zero3 nel).
  Proof.
    unfold DrvSpec.scatter. rewrite (rsum_ext _ _ (fun t => rsum (fun e => rsum (fun a => if triple_eqb (node e a) t then x t * G e a else 0)%R (box zero3 nen)) (box zero3 nel))).
    2:{ intros t _. rewrite <- rsum_scal. apply rsum_ext. intros e _. rewrite <- rsum_scal. apply rsum_ext. intros a _. destruct (triple_eqb (node e a) t); lra. }
    rewrite rsum_comm. apply rsum_ext. intros e _. rewrite rsum_comm. apply rsum_ext. intros a _.
    rewrite (rsum_single _ _ _ (node e a)); [|apply NoDup_box|apply In_box, node_in|].
    - rewrite (proj2 (triple_eqb_eq _ _) eq_refl). reflexivity.
    - intros t _ Ht. destruct (triple_eqb (node e a) t) eqn:E; auto. apply triple_eqb_eq in E. congruence.
  Qed.
  Lemma dofs_sum (g : Z -> R) : rsum g (zseq 0 n) = rsum (fun t => rsum (fun c => g (lin nen t * dof + c)) (zseq 0 dof)) (box zero3 nen).
  Proof. exact (rsum_dofs N nen first dof Hdof Hnen nel HN g). Qed.

  (** x^T K x of the array K of a point. *)
  Definition point_form (K X : Z -> R) : R := rsum (fun i => rsum (fun j => X i * K (i * n + j)%Z * X j)%R (zseq 0 n)) (zseq 0 n).

  Lemma integral_lin {A} e (g : A -> form_visit -> Z -> R) l :
    rsum (fun x => integral e (g x)) l = integral e (fun f q => rsum (fun x => g x f q) l).
  Proof.
    unfold DrvSpec.integral. rewrite rsum_comm. apply rsum_ext. intros f _. rewrite rsum_comm. apply rsum_ext. intros q _.
    rewrite rsum_mult_r. reflexivity.
  Qed.
  Lemma integral_scal e k g : (k * integral e g)%R = integral e (fun f q => k * g f q)%R.
  Proof.
    unfold DrvSpec.integral. rewrite <- rsum_scal. apply rsum_ext. intros f _. rewrite <- rsum_scal. apply rsum_ext. intros q _. ring.
  Qed.
  Lemma integral_ext e g h : (forall f q, In f (pieces dim nel visit e) -> 0 <= q < npts e f -> g f q = h f q) -> integral e g = integral e h.
  Proof.
    intros H. unfold DrvSpec.integral. apply rsum_ext. intros f Hf. apply rsum_ext. intros q Hq. apply in_zseq in Hq. rewrite H by (auto; lia). reflexivity.
  Qed.

  Lemma plain_form g (y : nodal) :
    rsum (fun t => rsum (fun c => y t c * node_row N dof (plain g) y t c)%R (zseq 0 dof)) (box zero3 N) =
    rsum (fun e => integral e (fun f q => point_form (g e f q) (earr e y))) (box zero3 nel).
  Proof.
    rewrite rsum_comm.
    rewrite (rsum_ext _ _ (fun c => rsum (fun e => rsum (fun a => y (node e a) c *
       rsum (fun j => integral e (fun f q => g e f q ((lin nen a * dof + c) * n + j)%Z) * earr e y j)%R (zseq 0 n))%R (box zero3 nen)) (box zero3 nel))).
    2:{ intros c Hc. apply in_zseq in Hc. rewrite <- (scatter_form (fun t => y t c)). apply rsum_ext. intros t _. f_equal.
        apply (plain_row dim dof N nen nel first visit npts JW presc (fun _ _ _ => 0%R) Hdof Hnen HN); lia. }
    rewrite rsum_comm. apply rsum_ext. intros e _. unfold point_form. rewrite rsum_comm.
    rewrite <- integral_lin. rewrite dofs_sum. apply rsum_ext. intros a Ha. apply In_box in Ha. apply rsum_ext. intros c Hc. apply in_zseq in Hc.
    rewrite <- integral_lin. rewrite <- rsum_scal. apply rsum_ext. intros j _.
    rewrite (earr_at dof N nen nel first visit npts JW presc (fun _ _ _ => 0%R) Hdof Hnen HN y e a c Ha ltac:(lia)).
    rewrite (Rmult_comm (integral e _)). rewrite <- Rmult_assoc. rewrite integral_scal. apply integral_ext. intros f q _ _. ring.
  Qed.

  Lemma jac_form g (x : nodal) :
    rsum (fun t => rsum (fun c => x t c * node_row N dof (jac g) x t c)%R (zseq 0 dof)) (box zero3 N) =
    (rsum (fun t => rsum (fun c => match presc t c with Some _ => multiplicity N nen nel first t * (x t c * x t c) | None => 0 end) (zseq 0 dof)) (box zero3 N) +
     rsum (fun e => integral e (fun f q => point_form (g e f q) (earr e (released presc x)))) (box zero3 nel))%R.
  Proof.
    rewrite <- plain_form, <- rsum_plus. apply rsum_ext. intros t Ht. apply In_box in Ht. rewrite <- rsum_plus. apply rsum_ext. intros c Hc. apply in_zseq in Hc.
    rewrite (jacobian_row dim dof N nen nel first visit npts JW presc (fun _ _ _ => 0%R) Hnen HN g x t c Ht ltac:(lia)). 
    replace (released presc x t c) with (match presc t c with Some _ => 0%R | None => x t c end) by reflexivity.
    destruct (presc t c); ring.
  Qed.

  Lemma multiplicity_pos t e a : In e (box zero3 nel) -> In a (box zero3 nen) -> node e a = t -> (0 < multiplicity N nen nel first t)%R.
  Proof.
    intros He Ha E. unfold multiplicity, DrvSpec.scatter. set (f := fun e => rsum (fun a => if triple_eqb (node e a) t then 1%R else 0%R) (box zero3 nen)).
    assert (P : forall e, In e (box zero3 nel) -> (0 <= f e)%R) by (intros e' _; apply rsum_nonneg; intros a' _; destruct (triple_eqb (node e' a') t); lra).
    apply Rlt_le_trans with (f e); [|apply rsum_elem; auto]. unfold f. apply Rlt_le_trans with (if triple_eqb (node e a) t then 1%R else 0%R).
    - rewrite (proj2 (triple_eqb_eq _ _) E). lra.
    - apply (rsum_elem _ (fun a => if triple_eqb (node e a) t then 1%R else 0%R)); auto. intros a' _. destruct (triple_eqb (node e a') t); lra.
  Qed.

  (** Positive definiteness from the points. *)
  Section Definite.
    Variable g : triple -> form_visit -> Z -> Z -> R.
    Let at_points (P : triple -> form_visit -> Z -> Prop) :=
      forall e f q, In e (box zero3 nel) -> In f (pieces dim nel visit e) -> 0 <= q < npts e f -> P e f q.
    Hypothesis HJW : at_points (fun e f q => (0 <= JW e f q)%R).
    Hypothesis Hpsd : at_points (fun e f q => forall X, (0 <= point_form (g e f q) X)%R).
    Hypothesis Hcover : forall t, in_box zero3 N t -> exists e a, In e (box zero3 nel) /\ In a (box zero3 nen) /\ node e a = t.
    Hypothesis Hdef : forall x : nodal, (forall t c, presc t c <> None -> x t c = 0%R) ->
      at_points (fun e f q => (point_form (g e f q) (earr e x) * JW e f q)%R = 0%R) ->
      forall t c, in_box zero3 N t -> 0 <= c < dof -> x t c = 0%R.

    Lemma integral_nonneg e x : In e (box zero3 nel) -> (0 <= integral e (fun f q => point_form (g e f q) x))%R.
    Proof.
      intros He. unfold DrvSpec.integral. apply rsum_nonneg. intros f Hf. apply rsum_nonneg. intros q Hq. apply in_zseq in Hq.
      apply Rmult_le_pos; [apply Hpsd; auto; lia|apply HJW; auto; lia].
    Qed.
    Lemma fixed_nonneg (x : nodal) t c : in_box zero3 N t -> (0 <= match presc t c with Some _ => multiplicity N nen nel first t * (x t c * x t c) | None => 0 end)%R.
    Proof.
      intros Ht. destruct (presc t c); [|lra]. destruct (Hcover t Ht) as (e & a & He & Ha & E). pose proof (multiplicity_pos t e a He Ha E).
      apply Rmult_le_pos; [lra|]. apply Rle_0_sqr.
    Qed.
    Lemma jac_nonneg (x : nodal) : (0 <= rsum (fun t => rsum (fun c => x t c * node_row N dof (jac g) x t c)%R (zseq 0 dof)) (box zero3 N))%R.
    Proof.
      rewrite jac_form. apply Rplus_le_le_0_compat.
      - apply rsum_nonneg. intros t Ht. apply In_box in Ht. apply rsum_nonneg. intros c _. apply fixed_nonneg; auto.
      - apply rsum_nonneg. intros e He. apply integral_nonneg; auto.
    Qed.
    Lemma jac_definite (x : nodal) :
      rsum (fun t => rsum (fun c => x t c * node_row N dof (jac g) x t c)%R (zseq 0 dof)) (box zero3 N) = 0%R ->
      forall t c, in_box zero3 N t -> 0 <= c < dof -> x t c = 0%R.
    Proof.
      rewrite jac_form. intros E.
      set (S1 := rsum (fun t => rsum (fun c => match presc t c with Some _ => (multiplicity N nen nel first t * (x t c * x t c))%R | None => 0%R end) (zseq 0 dof)) (box zero3 N)) in *.
      set (S2 := rsum (fun e => integral e (fun f q => point_form (g e f q) (earr e (released presc x)))) (box zero3 nel)) in *.
      assert (P1 : (0 <= S1)%R) by (apply rsum_nonneg; intros t Ht; apply In_box in Ht; apply rsum_nonneg; intros c _; apply fixed_nonneg; auto).
      assert (P2 : (0 <= S2)%R) by (apply rsum_nonneg; intros e He; apply integral_nonneg; auto).
      assert (E1 : S1 = 0%R) by lra. assert (E2 : S2 = 0%R) by lra. clear E P1 P2.
      assert (F : forall t c, in_box zero3 N t -> 0 <= c < dof -> presc t c <> None -> x t c = 0%R).
      { intros t c Ht Hc Hp.
        pose proof (rsum_nonneg_zero _ _ ltac:(intros t' Ht'; apply In_box in Ht'; apply rsum_nonneg; intros c' _; apply fixed_nonneg; exact Ht') E1 t ltac:(apply In_box; auto)) as Q.
        cbv beta in Q. pose proof (rsum_nonneg_zero _ _ ltac:(intros c' _; apply fixed_nonneg; exact Ht) Q c ltac:(apply in_zseq; lia)) as Q2. cbv beta in Q2.
        destruct (presc t c); [|congruence]. destruct (Hcover t Ht) as (e & a & He & Ha & E). pose proof (multiplicity_pos t e a He Ha E).
        apply Rmult_integral in Q2. destruct Q2 as [Q2|Q2]; [lra|]. apply Rmult_integral in Q2. destruct Q2; auto. }
      intros t c Ht Hc. destruct (presc t c) eqn:Ep; [apply F; auto; congruence|].
      transitivity (released presc x t c); [unfold released; rewrite Ep; auto|].
      apply (Hdef (released presc x)); auto.
      - intros t' c' Hp. unfold released. destruct (presc t' c'); congruence.
      - intros e f q He Hf Hq. pose proof (rsum_nonneg_zero _ _ ltac:(intros e' He'; apply integral_nonneg; exact He') E2 e He) as Q. cbv beta in Q.
        unfold DrvSpec.integral in Q.
        set (X := earr e (released presc x)) in *.
        assert (T : forall f q, In f (pieces dim nel visit e) -> 0 <= q < npts e f -> (0 <= point_form (g e f q) X * JW e f q)%R).
        { intros f' q' Hf' Hq'. apply Rmult_le_pos; [apply (Hpsd e f' q' He Hf' Hq')|apply (HJW e f' q' He Hf' Hq')]. }
        assert (T2 : forall f, In f (pieces dim nel visit e) -> (0 <= rsum (fun q => point_form (g e f q) X * JW e f q)%R (zseq 0 (npts e f)))%R).
        { intros f' Hf'. apply rsum_nonneg. intros q' Hq'. apply in_zseq in Hq'. apply T; [auto|lia]. }
        pose proof (rsum_nonneg_zero _ _ T2 Q f Hf) as Q2. cbv beta in Q2.
        refine (rsum_nonneg_zero _ _ _ Q2 q _); [|apply in_zseq; lia]. intros q' Hq'. apply in_zseq in Hq'. apply T; [auto|lia].
    Qed.
  End Definite.

  (** Symmetry. *)
  Lemma plain_symmetric g t c u d : 0 <= c < dof -> 0 <= d < dof ->
    (forall e f q i j, In e (box zero3 nel) -> In f (pieces dim nel visit e) -> 0 <= q < npts e f -> 0 <= i < n -> 0 <= j < n -> g e f q (i * n + j) = g e f q (j * n + i)) ->
    plain g t c u d = plain g u d t c.
  Proof.
    intros Hc Hd Hs. unfold plain_matrix, scatter2, DrvSpec.scatter. apply rsum_ext. intros e He.
    transitivity (rsum (fun a => rsum (fun b => if triple_eqb (node e a) t then if triple_eqb (node e b) u then
       integral e (fun f q => g e f q ((lin nen a * dof + c) * (vol nen * dof) + (lin nen b * dof + d))) else 0%R else 0%R) (box zero3 nen)) (box zero3 nen)).
    { apply rsum_ext. intros a _. rewrite rsum_if. reflexivity. }
    rewrite rsum_comm. apply rsum_ext. intros b Hb. apply In_box in Hb. 
    transitivity (rsum (fun a => if triple_eqb (node e b) u then if triple_eqb (node e a) t then
       integral e (fun f q => g e f q ((lin nen b * dof + d) * (vol nen * dof) + (lin nen a * dof + c))) else 0%R else 0%R) (box zero3 nen)).
    { apply rsum_ext. intros a Ha. apply In_box in Ha. destruct (triple_eqb (node e a) t), (triple_eqb (node e b) u); auto.
      apply integral_ext. intros f q Hf Hq. apply Hs; auto; apply (index_lt dof N nen nel first visit presc Hdof Hnen HN); auto. }
    rewrite rsum_if. reflexivity.
  Qed.
  Lemma jac_symmetric g t c u d : 0 <= c < dof -> 0 <= d < dof ->
    (forall e f q i j, In e (box zero3 nel) -> In f (pieces dim nel visit e) -> 0 <= q < npts e f -> 0 <= i < n -> 0 <= j < n -> g e f q (i * n + j) = g e f q (j * n + i)) ->
    jac g t c u d = jac g u d t c.
  Proof.
    intros Hc Hd Hs. unfold jacobian.
    assert (E : (if triple_eqb t u && (c =? d) then multiplicity N nen nel first t else 0%R) = (if triple_eqb u t && (d =? c) then multiplicity N nen nel first u else 0%R)).
    { destruct (triple_eqb t u) eqn:E1.
      - apply triple_eqb_eq in E1. subst u. rewrite (proj2 (triple_eqb_eq t t) eq_refl), (Z.eqb_sym d c). reflexivity.
      - replace (triple_eqb u t) with false; auto. symmetry. destruct (triple_eqb u t) eqn:E2; auto. apply triple_eqb_eq in E2. subst u.
        rewrite (proj2 (triple_eqb_eq t t) eq_refl) in E1. discriminate. }
    destruct (presc t c), (presc u d); auto. apply plain_symmetric; auto.
  Qed.
End Gram.
