(** Proofs about the error norms. *)
From Coq Require Import ZArith List Bool Lia Reals Lra Psatz Permutation.
From Coq Require Import ZifyBool ZifyNat.
From Verif Require Import Prelude RealOrd AxisModel Box AxisInitModel SetupModel GridModel GridSpec GridProofs GridProps ElemModel ElemSpec BCModel BCProofs2 DrvModel DrvProofs2 ErrModel ErrSpec.
Import ListNotations.
Open Scope Z_scope.

(** Loops that add to cells of an array. *)
Lemma fold_adds {A} (step : A -> (Z -> R) -> Z -> R) (h : A -> Z -> R) l :
  (forall x V k, In x l -> step x V k = (V k + h x k)%R) ->
  forall V k, fold_left (fun V x => step x V) l V k = (V k + rsum (fun x => h x k) l)%R.
Proof.
  intros H. induction l as [|x l IH]; intros V k; cbn [fold_left]; [unfold rsum; cbn; lra|].
  rewrite IH by (intros; apply H; right; auto). rewrite H by (left; auto). rewrite rsum_cons. lra.
Qed.
Lemma upd_add (V : Z -> R) i (g : R) k : upd V i (V i + g)%R k = (V k + if i =? k then g else 0)%R.
Proof. unfold upd. destruct (i =? k) eqn:E; [assert (i = k) by lia; subst; rewrite Z.eqb_refl; lra|]. destruct (k =? i) eqn:E'; [lia|lra]. Qed.

Lemma cell_inj n i j i' j' : 0 <= j < n -> 0 <= j' < n -> i * n + j = i' * n + j' -> i = i' /\ j = j'.
Proof.
  intros H H' E. assert (i = i').
  { assert (A : (i * n + j) / n = i) by (rewrite Z.div_add_l by lia; rewrite Z.div_small by lia; lia).
    assert (B : (i' * n + j') / n = i') by (rewrite Z.div_add_l by lia; rewrite Z.div_small by lia; lia). congruence. }
  subst. split; lia.
Qed.

Lemma point_evaluate_spec nen dof n N U i j : 0 <= i < dof -> 0 <= j < n ->
  point_evaluate nen dof n N U (i * n + j) = rsum (fun a => N (a * n + j)%Z * U (a * dof + i)%Z)%R (zseq 0 nen).
Proof.
  intros Hi Hj. unfold point_evaluate, loop.
  rewrite (fold_adds _ (fun a k => rsum (fun i => rsum (fun j => if i * n + j =? k then (N (a * n + j)%Z * U (a * dof + i)%Z)%R else 0%R) (zseq 0 n)) (zseq 0 dof))).
  - rewrite Rplus_0_l. apply rsum_ext. intros a _.
    rewrite (rsum_single _ _ _ i); [|apply NoDup_zseq|apply in_zseq; lia|].
    + rewrite (rsum_single _ _ _ j); [|apply NoDup_zseq|apply in_zseq; lia|].
      * rewrite Z.eqb_refl. reflexivity.
      * intros j' Hj' Hne. apply in_zseq in Hj'. destruct (i * n + j' =? i * n + j) eqn:E; auto. lia.
    + intros i' Hi' Hne. apply rsum_zero. intros j' Hj'. apply in_zseq in Hj'. destruct (i' * n + j' =? i * n + j) eqn:E; auto.
      exfalso. apply Hne. apply (cell_inj n i' j' i j); lia.
  - intros a V k _.
    rewrite (fold_adds _ (fun i k => rsum (fun j => if i * n + j =? k then (N (a * n + j)%Z * U (a * dof + i)%Z)%R else 0%R) (zseq 0 n))); auto.
    intros i' V' k' _.
    rewrite (fold_adds _ (fun j k => if i' * n + j =? k then (N (a * n + j)%Z * U (a * dof + i')%Z)%R else 0%R)); auto.
    intros j' V'' k'' _. apply upd_add.
Qed.

Lemma error_sqr_spec nen dof n N exact U i : 0 <= i < dof ->
  error_sqr nen dof n N exact U i =
  rsum (fun j => ((match exact with Some E => E (fun _ => 0%R) (i * n + j)%Z | None => 0%R end) -
    rsum (fun a => N (a * n + j)%Z * U (a * dof + i)%Z) (zseq 0 nen)) ^ 2)%R (zseq 0 n).
Proof.
  intros Hi. unfold error_sqr, loop.
  set (ve := match exact with Some E => E (fun _ => 0%R) | None => fun _ => 0%R end).
  set (va := point_evaluate nen dof n N U).
  rewrite (fold_adds _ (fun i k => rsum (fun j => if i =? k then (Rabs (ve (i * n + j)%Z - va (i * n + j)%Z) * Rabs (ve (i * n + j)%Z - va (i * n + j)%Z))%R else 0%R) (zseq 0 n))).
  - rewrite Rplus_0_l. rewrite (rsum_single _ _ _ i); [|apply NoDup_zseq|apply in_zseq; lia|].
    + apply rsum_ext. intros j Hj. apply in_zseq in Hj. rewrite Z.eqb_refl. unfold va. rewrite point_evaluate_spec by lia.
      replace (ve (i * n + j)) with (match exact with Some E => E (fun _ => 0%R) (i * n + j)%Z | None => 0%R end) by (unfold ve; destruct exact; reflexivity).
      rewrite <- Rabs_mult. rewrite Rabs_pos_eq by apply Rle_0_sqr. ring.
    + intros i' _ Hne. apply rsum_zero. intros j _. replace (i' =? i) with false by lia. reflexivity.
  - intros i' V k _.
    rewrite (fold_adds _ (fun j k => if i' =? k then (Rabs (ve (i' * n + j)%Z - va (i' * n + j)%Z) * Rabs (ve (i' * n + j)%Z - va (i' * n + j)%Z))%R else 0%R)); auto.
    intros j V' k' _. apply upd_add.
Qed.

Lemma intpow_spec dim k : 1 <= dim <= 3 -> 0 <= k <= 4 -> intpow_at dim k = Some (dim ^ k).
Proof.
  intros Hd Hk. assert (D : dim = 1 \/ dim = 2 \/ dim = 3) by lia. assert (K : k = 0 \/ k = 1 \/ k = 2 \/ k = 3 \/ k = 4) by lia.
  destruct D as [-> | [-> | ->]]; destruct K as [-> | [-> | [-> | [-> | ->]]]]; reflexivity.
Qed.

(** Cauchy-Schwarz and Minkowski for weighted finite sums. *)
Lemma cs_step A B C w a b : (0 <= A -> 0 <= B -> C * C <= A * B -> 0 <= w ->
  (C + w * (a * b)) * (C + w * (a * b)) <= (A + w * (a * a)) * (B + w * (b * b)))%R.
Proof.
  intros HA HB HC Hw.
  assert (K : (2 * (C * (a * b)) <= A * (b * b) + B * (a * a))%R).
  { apply Rsqr_incr_0_var; [|apply Rplus_le_le_0_compat; apply Rmult_le_pos; auto; apply Rle_0_sqr].
    unfold Rsqr. assert (P : (0 <= (a * b) * (a * b))%R) by apply Rle_0_sqr.
    assert (Q : (C * C * ((a * b) * (a * b)) <= A * B * ((a * b) * (a * b)))%R) by (apply Rmult_le_compat_r; auto).
    pose proof (Rle_0_sqr (A * (b * b) - B * (a * a))) as S. unfold Rsqr in S. lra. }
  assert (L : (0 <= w * (A * (b * b) + B * (a * a) - 2 * (C * (a * b))))%R) by (apply Rmult_le_pos; lra).
  lra.
Qed.
Lemma cs {T} (w a b : T -> R) l : (forall x, In x l -> 0 <= w x)%R ->
  (0 <= rsum (fun x => w x * (a x * a x)) l /\ 0 <= rsum (fun x => w x * (b x * b x)) l /\
   rsum (fun x => w x * (a x * b x)) l * rsum (fun x => w x * (a x * b x)) l <=
   rsum (fun x => w x * (a x * a x)) l * rsum (fun x => w x * (b x * b x)) l)%R.
Proof.
  induction l as [|x l IH]; intros H; [unfold rsum; cbn; lra|]. rewrite !rsum_cons.
  destruct IH as (P & Q & S); [intros; apply H; right; auto|]. assert (W : (0 <= w x)%R) by (apply H; left; auto).
  split; [|split].
  - apply Rplus_le_le_0_compat; auto. apply Rmult_le_pos; auto. apply Rle_0_sqr.
  - apply Rplus_le_le_0_compat; auto. apply Rmult_le_pos; auto. apply Rle_0_sqr.
  - rewrite !(Rplus_comm (w x * _)%R). apply cs_step; auto.
Qed.
Lemma minkowski {T} (w a b : T -> R) l : (forall x, In x l -> 0 <= w x)%R ->
  (sqrt (rsum (fun x => w x * ((a x + b x) * (a x + b x))) l) <=
   sqrt (rsum (fun x => w x * (a x * a x)) l) + sqrt (rsum (fun x => w x * (b x * b x)) l))%R.
Proof.
  intros H. destruct (cs w a b l H) as (PA & PB & CS).
  set (A := rsum (fun x => w x * (a x * a x))%R l) in *. set (B := rsum (fun x => w x * (b x * b x))%R l) in *.
  set (C := rsum (fun x => w x * (a x * b x))%R l) in *.
  assert (E : rsum (fun x => w x * ((a x + b x) * (a x + b x)))%R l = (A + 2 * C + B)%R).
  { unfold A, B, C. rewrite <- rsum_scal, <- !rsum_plus. apply rsum_ext. intros x _. lra. }
  rewrite E. apply Rsqr_incr_0_var; [|apply Rplus_le_le_0_compat; apply sqrt_pos].
  assert (Cle : (C <= sqrt A * sqrt B)%R).
  { rewrite <- sqrt_mult by auto. apply Rsqr_incr_0_var; [|apply sqrt_pos]. rewrite Rsqr_sqrt by (apply Rmult_le_pos; auto). exact CS. }
  destruct (Rle_or_lt 0 (A + 2 * C + B)) as [Hp|Hp].
  - rewrite Rsqr_sqrt by auto. unfold Rsqr. pose proof (sqrt_sqrt A PA). pose proof (sqrt_sqrt B PB). lra.
  - rewrite sqrt_neg_0 by lra. unfold Rsqr. rewrite Rmult_0_l. apply Rle_0_sqr.
Qed.
