(** Sums of inverted diagonal blocks. *)
From Coq Require Import ZArith List Bool Lia Reals Lra Permutation.
From Coq Require Import ZifyBool ZifyNat.
From Verif Require Import Prelude Box GridModel GridSpec GridProofs ElemModel AsmProofs SetupModel SolvModel PcModel PcSpec.
Import ListNotations.
Open Scope Z_scope.

Lemma rsum_delta n t (f : Z -> R) : 0 <= t < n -> rsum (fun i => if t =? i then f i else 0%R) (zseq 0 n) = f t.
Proof.
  intros Ht. rewrite (rsum_single _ _ _ t (NoDup_zseq _ _)); [rewrite Z.eqb_refl; reflexivity|apply in_zseq; lia|].
  intros x _ Hx. replace (t =? x) with false by lia. reflexivity.
Qed.
Lemma rsum_delta' n t (f : Z -> R) : 0 <= t < n -> rsum (fun i => if i =? t then f i else 0%R) (zseq 0 n) = f t.
Proof. intros Ht. rewrite <- (rsum_delta n t f Ht). apply rsum_ext. intros i _. rewrite Z.eqb_sym. reflexivity. Qed.

Lemma qform_sum {T} n (F : T -> Z -> Z -> R) l x y :
  qform n (fun i j => rsum (fun t => F t i j) l) x y = rsum (fun t => qform n (F t) x y) l.
Proof.
  unfold qform. rewrite rsum_comm with (la := l). apply rsum_ext. intros i _.
  rewrite rsum_comm with (la := l). apply rsum_ext. intros j _.
  induction l as [|t l IH]; [unfold rsum; cbn; ring|]. rewrite !rsum_cons, <- IH. ring.
Qed.

Lemma qform_ext n A B x y x' y' : (forall i j, 0 <= i < n -> 0 <= j < n -> A i j = B i j) ->
  (forall i, 0 <= i < n -> x i = x' i) -> (forall i, 0 <= i < n -> y i = y' i) -> qform n A x y = qform n B x' y'.
Proof.
  intros H Hx Hy. unfold qform. apply rsum_ext. intros i Hi. apply in_zseq in Hi. apply rsum_ext. intros j Hj. apply in_zseq in Hj.
  rewrite H, Hx, Hy by lia. reflexivity.
Qed.

Lemma qform_delta n s t v x y : 0 <= s < n -> 0 <= t < n ->
  qform n (fun i j => if (s =? i) && (t =? j) then v else 0%R) x y = (x s * v * y t)%R.
Proof.
  intros Hs Ht. unfold qform.
  rewrite (rsum_ext _ _ (fun i => if s =? i then (x i * v * y t)%R else 0%R)).
  - apply (rsum_delta n s (fun i => (x i * v * y t)%R) Hs).
  - intros i _. destruct (s =? i); cbn [andb].
    + rewrite <- (rsum_delta n t (fun j => (x i * v * y j)%R) Ht). apply rsum_ext. intros j _. destruct (t =? j); ring.
    + apply rsum_zero. intros j _. ring.
Qed.

(** B x *)
Definition mulv n (A : Z -> Z -> R) (x : Z -> R) : Z -> R := fun i => rsum (fun j => A i j * x j)%R (zseq 0 n).
Lemma qform_mulv n A x y : qform n A x y = rsum (fun i => x i * mulv n A y i)%R (zseq 0 n).
Proof.
  unfold qform, mulv. apply rsum_ext. intros i _. rewrite <- rsum_scal. apply rsum_ext. intros; ring.
Qed.

Lemma mulv_inverse n A X z : inverse_of n A X -> forall i, 0 <= i < n -> mulv n A (mulv n X z) i = z i.
Proof.
  intros H i Hi. unfold mulv.
  rewrite (rsum_ext _ _ (fun j => rsum (fun k => (A i j * X j k) * z k)%R (zseq 0 n))).
  2:{ intros j _. rewrite <- rsum_scal. apply rsum_ext. intros; ring. }
  rewrite rsum_comm. rewrite (rsum_ext _ _ (fun k => if i =? k then z k else 0%R)).
  - apply (rsum_delta n i z Hi).
  - intros k Hk. apply in_zseq in Hk. rewrite (rsum_ext _ _ (fun j => z k * (A i j * X j k))%R) by (intros; ring).
    rewrite rsum_scal, (proj1 (H i k Hi ltac:(lia))). destruct (i =? k); ring.
Qed.

Lemma inverse_sym n A X : symmetric n A -> inverse_of n A X -> symmetric n X.
Proof.
  intros HS H a b Ha Hb.
  transitivity (rsum (fun d => (if d =? a then 1 else 0) * X d b)%R (zseq 0 n)).
  { rewrite (rsum_ext _ _ (fun d => if d =? a then X d b else 0%R)); [symmetry; apply (rsum_delta' n a (fun d => X d b) Ha)|].
    intros d _. destruct (d =? a); ring. }
  rewrite (rsum_ext _ _ (fun d => rsum (fun c => X c a * (A c d * X d b))%R (zseq 0 n))).
  2:{ intros d Hd. apply in_zseq in Hd. rewrite <- (proj1 (H d a ltac:(lia) Ha)).
      rewrite Rmult_comm, <- rsum_scal. apply rsum_ext. intros c Hc. apply in_zseq in Hc. rewrite (HS d c) by lia. ring. }
  rewrite rsum_comm. rewrite (rsum_ext _ _ (fun c => if c =? b then X c a else 0%R)); [apply (rsum_delta' n b (fun c => X c a) Hb)|].
  intros c Hc. apply in_zseq in Hc. rewrite rsum_scal, (proj1 (H c b ltac:(lia) Hb)). destruct (c =? b); ring.
Qed.

Lemma spd_nonneg n A x : spd n A -> (0 <= qform n A x x)%R /\ ((forall i, 0 <= i < n -> x i = 0%R) \/ (0 < qform n A x x)%R).
Proof.
  intros [_ H].
  assert (D : (forall i, 0 <= i < n -> x i = 0%R) \/ exists i, 0 <= i < n /\ x i <> 0%R).
  { assert (K : forall l, (forall i, In i l -> x i = 0%R) \/ exists i, In i l /\ x i <> 0%R).
    { induction l as [|a l [IH|IH]].
      - left. intros i [].
      - destruct (Req_EM_T (x a) 0); [left; intros i [<-|Hi]; auto|right; exists a; split; [left|]; auto].
      - right. destruct IH as (i & Hi & Hx). exists i. split; [right|]; auto. }
    destruct (K (zseq 0 n)) as [E|(i & Hi & Hx)]; [left; intros i Hi; apply E, in_zseq; lia|right; exists i; split; [apply in_zseq in Hi; lia|auto]]. }
  destruct D as [Z0|N0].
  - split; [|left; auto]. right. unfold qform. symmetry. apply rsum_zero. intros i Hi. apply rsum_zero. intros j _. apply in_zseq in Hi. rewrite Z0 by lia. ring.
  - split; [left|right]; apply H; auto.
Qed.

(** The inverse of a positive definite matrix is positive definite. *)
Lemma inverse_spd n A X : spd n A -> inverse_of n A X -> spd n X.
Proof.
  intros HA HX. split; [exact (inverse_sym n A X (proj1 HA) HX)|].
  intros z (i & Hi & Hz). set (u := mulv n X z).
  assert (E : qform n X z z = qform n A u u).
  { rewrite !qform_mulv. apply rsum_ext. intros k Hk. apply in_zseq in Hk. unfold u. rewrite (mulv_inverse n A X z HX k) by lia. ring. }
  rewrite E. destruct (spd_nonneg n A u HA) as [_ [U|U]]; [|exact U].
  exfalso. apply Hz. rewrite <- (mulv_inverse n A X z HX i Hi). fold u. unfold mulv. apply rsum_zero. intros j Hj. apply in_zseq in Hj.
  rewrite U by lia. ring.
Qed.

(** Principal submatrices. *)
Lemma at_in l a : 0 <= a < Z.of_nat (length l) -> In (at_ l a) l.
Proof. intros H. unfold at_. apply nth_In. lia. Qed.
Lemma at_inj l a b : NoDup l -> 0 <= a < Z.of_nat (length l) -> 0 <= b < Z.of_nat (length l) -> at_ l a = at_ l b -> a = b.
Proof. intros HN Ha Hb E. unfold at_ in E. apply (proj1 (NoDup_nth l 0) HN) in E; lia. Qed.
Lemma in_at l x : In x l -> exists a, 0 <= a < Z.of_nat (length l) /\ at_ l a = x.
Proof. intros H. destruct (In_nth l x 0 H) as (k & Hk & E). exists (Z.of_nat k). unfold at_. rewrite Nat2Z.id. split; [lia|auto]. Qed.

Definition spread (l : list Z) (z : Z -> R) : Z -> R :=
  fun i => rsum (fun a => if at_ l a =? i then z a else 0%R) (zseq 0 (Z.of_nat (length l))).
Lemma spread_at l z a : NoDup l -> 0 <= a < Z.of_nat (length l) -> spread l z (at_ l a) = z a.
Proof.
  intros HN Ha. unfold spread. rewrite <- (rsum_delta' (Z.of_nat (length l)) a z Ha). apply rsum_ext. intros b Hb. apply in_zseq in Hb.
  destruct (b =? a) eqn:E; [replace b with a by lia; rewrite Z.eqb_refl; reflexivity|].
  destruct (at_ l b =? at_ l a) eqn:F; [|reflexivity]. apply Z.eqb_eq in F. apply at_inj in F; [lia|auto|lia|lia].
Qed.

Lemma qform_spread n A l z w : (forall x, In x l -> 0 <= x < n) ->
  qform n A (spread l z) (spread l w) = qform (Z.of_nat (length l)) (restrict l A) z w.
Proof.
  intros Hr. set (m := Z.of_nat (length l)). unfold qform at 1.
  transitivity (rsum (fun a => rsum (fun b => rsum (fun i => rsum (fun j =>
     if (at_ l a =? i) && (at_ l b =? j) then (z a * A i j * w b)%R else 0%R) (zseq 0 n)) (zseq 0 n)) (zseq 0 m)) (zseq 0 m)).
  - rewrite (rsum_ext _ _ (fun i => rsum (fun j => rsum (fun a => rsum (fun b =>
     if (at_ l a =? i) && (at_ l b =? j) then (z a * A i j * w b)%R else 0%R) (zseq 0 m)) (zseq 0 m)) (zseq 0 n))).
    + etransitivity; [|apply rsum_ext; intros a _; symmetry; etransitivity; [apply rsum_comm|apply rsum_ext; intros i _; apply rsum_comm]].
      symmetry. etransitivity; [apply rsum_comm|]. apply rsum_ext. intros i _. apply rsum_comm.
    + intros i _. apply rsum_ext. intros j _. unfold spread. fold m.
      rewrite Rmult_assoc, Rmult_comm, <- rsum_scal. apply rsum_ext. intros a _.
      destruct (at_ l a =? i); cbn [andb].
      * rewrite (Rmult_comm _ (z a)), <- Rmult_assoc, <- rsum_scal. apply rsum_ext. intros b _. destruct (at_ l b =? j); ring.
      * rewrite Rmult_0_r. symmetry. apply rsum_zero. intros; reflexivity.
  - unfold qform, restrict. apply rsum_ext. intros a Ha. apply in_zseq in Ha. apply rsum_ext. intros b Hb. apply in_zseq in Hb.
    pose proof (Hr _ (at_in l a ltac:(lia))) as Ra. pose proof (Hr _ (at_in l b ltac:(lia))) as Rb.
    rewrite (rsum_ext _ _ (fun i => if at_ l a =? i then (z a * A i (at_ l b) * w b)%R else 0%R)).
    + apply (rsum_delta n (at_ l a) (fun i => z a * A i (at_ l b) * w b)%R Ra).
    + intros i _. destruct (at_ l a =? i); cbn [andb].
      * apply (rsum_delta n (at_ l b) (fun j => z a * A i j * w b)%R Rb).
      * apply rsum_zero. intros; reflexivity.
Qed.

Lemma restrict_spd n A l : spd n A -> NoDup l -> (forall x, In x l -> 0 <= x < n) -> spd (Z.of_nat (length l)) (restrict l A).
Proof.
  intros [HS HP] HN Hr. split.
  - intros a b Ha Hb. unfold restrict. apply HS; apply Hr, at_in; lia.
  - intros z (a & Ha & Hz). rewrite <- (qform_spread n A l z z Hr). apply HP. exists (at_ l a). split; [apply Hr, at_in; auto|].
    rewrite spread_at; auto.
Qed.

(** * The loops *)
Section Loop.
  Variable invert : Z -> (Z -> R) -> option (Z -> R).
  Variable A : Z -> Z -> R.
  Definition vals (l : list Z) : Z -> R := match invert (len l) (mat_get_values A l) with Some X => X | None => fun _ => 0%R end.
  Definition blockm (l : list Z) : Z -> Z -> R := fun a b => vals l (a * len l + b).
  Definition contrib (l : list Z) (i j : Z) : R :=
    rsum (fun a => rsum (fun b => if (entry l a =? i) && (entry l b =? j) then blockm l a b else 0%R) (zseq 0 (len l))) (zseq 0 (len l)).

  Lemma fold_none blocks : fold_left (add_block invert A) blocks None = None.
  Proof. induction blocks; cbn [fold_left]; auto. Qed.

  Lemma fold_blocks blocks : forall B0 B, fold_left (add_block invert A) blocks (Some B0) = Some B ->
    (forall l, In l blocks -> invert (len l) (mat_get_values A l) = Some (vals l)) /\
    forall i j, 0 <= i -> 0 <= j -> B i j = (B0 i j + rsum (fun l => contrib l i j) blocks)%R.
  Proof.
    induction blocks as [|l blocks IH]; intros B0 B H; cbn [fold_left] in H.
    - injection H as <-. split; [intros l []|]. intros. unfold rsum; cbn. ring.
    - cbn [add_block] in H. destruct (invert (len l) (mat_get_values A l)) as [X|] eqn:E; [|rewrite fold_none in H; discriminate].
      destruct (IH _ _ H) as [H1 H2]. split.
      + intros l' [<-|Hl]; [unfold vals; rewrite E; reflexivity|auto].
      + intros i j Hi Hj. rewrite H2 by auto. rewrite add_entries2_spec by auto. rewrite rsum_cons, <- Rplus_assoc. do 2 f_equal.
        unfold mat_set_values, contrib, blockm, vals. rewrite E. rewrite rsum_flat_map. apply rsum_ext. intros a _. rewrite rsum_map. reflexivity.
  Qed.

  Lemma fold_succeeds blocks : (forall l, In l blocks -> invert (len l) (mat_get_values A l) <> None) ->
    forall B0, exists B, fold_left (add_block invert A) blocks (Some B0) = Some B.
  Proof.
    induction blocks as [|l blocks IH]; intros H B0; cbn [fold_left]; [eauto|]. cbn [add_block].
    destruct (invert (len l) (mat_get_values A l)) as [X|] eqn:E; [|destruct (H l (or_introl eq_refl) E)].
    apply IH. intros l' Hl. apply H. right. exact Hl.
  Qed.

  Lemma contrib_form n l x y : (forall i, In i l -> 0 <= i < n) ->
    qform n (contrib l) x y = qform (len l) (blockm l) (fun a => x (at_ l a)) (fun b => y (at_ l b)).
  Proof.
    intros Hr. unfold contrib. rewrite (qform_sum n (fun a i j => rsum (fun b => if (entry l a =? i) && (entry l b =? j) then blockm l a b else 0%R) (zseq 0 (len l)))).
    apply rsum_ext. intros a Ha. apply in_zseq in Ha.
    rewrite (qform_sum n (fun b i j => if (entry l a =? i) && (entry l b =? j) then blockm l a b else 0%R)).
    apply rsum_ext. intros b Hb. apply in_zseq in Hb. unfold len in *.
    apply (qform_delta n (at_ l a) (at_ l b)); apply Hr, at_in; lia.
  Qed.

  Lemma contrib_zero l i j : ~ In i l \/ ~ In j l -> contrib l i j = 0%R.
  Proof.
    intros H. unfold contrib. apply rsum_zero. intros a Ha. apply rsum_zero. intros b Hb. apply in_zseq in Ha. apply in_zseq in Hb. unfold len in *.
    destruct ((entry l a =? i) && (entry l b =? j)) eqn:E; [|reflexivity]. exfalso. apply andb_true_iff in E. destruct E as [E1 E2].
    apply Z.eqb_eq in E1. apply Z.eqb_eq in E2. destruct H as [H|H]; apply H; [rewrite <- E1|rewrite <- E2]; apply at_in; lia.
  Qed.
End Loop.

(** reading a row-major array as a column-major one transposes it *)
Lemma get_values_col A l i j : 0 <= i < len l -> 0 <= j < len l -> mat_get_values A l (i + j * len l) = restrict l A j i.
Proof.
  intros Hi Hj. unfold mat_get_values, restrict. rewrite Z.div_add, Z.mod_add by lia. rewrite Z.div_small, Z.mod_small by lia. reflexivity.
Qed.

Lemma inverse_transpose n A X : inverse_of n A X -> inverse_of n (fun i j => A j i) (fun i j => X j i).
Proof.
  intros H i k Hi Hk. destruct (H k i Hk Hi) as [H1 H2]. rewrite (Z.eqb_sym i k).
  split; [rewrite <- H2|rewrite <- H1]; apply rsum_ext; intros; ring.
Qed.
Lemma inverse_ext n A B X Y : (forall i j, 0 <= i < n -> 0 <= j < n -> A i j = B i j) -> (forall i j, 0 <= i < n -> 0 <= j < n -> X i j = Y i j) ->
  inverse_of n A X -> inverse_of n B Y.
Proof.
  intros HA HX H i k Hi Hk. destruct (H i k Hi Hk) as [H1 H2].
  split; [rewrite <- H1|rewrite <- H2]; apply rsum_ext; intros j Hj; apply in_zseq in Hj; rewrite HA, HX by lia; reflexivity.
Qed.
Lemma spd_ext n A B : (forall i j, 0 <= i < n -> 0 <= j < n -> A i j = B i j) -> spd n A -> spd n B.
Proof.
  intros H [HS HP]. split.
  - intros i j Hi Hj. rewrite <- !H by auto. auto.
  - intros x Hx. rewrite <- (qform_ext n A B x x x x H); auto.
Qed.
Lemma symmetric_transpose n A : spd n A -> spd n (fun i j => A j i).
Proof. intros H. apply (spd_ext n A); auto. intros i j Hi Hj. apply (proj1 H); auto. Qed.

Lemma lapack_inverse lapack A l X : inverts lapack -> 1 <= len l -> lapack (len l) (mat_get_values A l) = Some X ->
  inverse_of (len l) (restrict l A) (fun a b => X (a * len l + b)).
Proof.
  intros [HL _] Hn E. pose proof (HL _ _ _ Hn E) as H. apply inverse_transpose in H. revert H. apply inverse_ext.
  - intros i j Hi Hj. apply get_values_col; auto.
  - intros i j Hi Hj. f_equal. lia.
Qed.
Lemma lapack_succeeds lapack A l : inverts lapack -> 1 <= len l -> spd (len l) (restrict l A) -> lapack (len l) (mat_get_values A l) <> None.
Proof.
  intros [_ HL] Hn H. apply HL; auto. apply (spd_ext _ (fun i j => restrict l A j i)); [|apply symmetric_transpose; auto].
  intros i j Hi Hj. symmetry. apply get_values_col; auto.
Qed.

(** Both inversions give the inverse of the block. *)
Lemma ebe_inverse lapack A l : inverts lapack -> ebe_invert lapack (len l) (mat_get_values A l) <> None ->
  inverse_of (len l) (restrict l A) (blockm (ebe_invert lapack) A l).
Proof.
  intros HL H. unfold blockm, vals. destruct (ebe_invert lapack (len l) (mat_get_values A l)) as [X|] eqn:E; [|congruence].
  unfold ebe_invert in E. destruct (len l =? 0) eqn:E0; [discriminate|]. apply (lapack_inverse lapack); auto. unfold len in *. lia.
Qed.
Lemma ebe_succeeds lapack A l : inverts lapack -> 1 <= len l -> spd (len l) (restrict l A) -> ebe_invert lapack (len l) (mat_get_values A l) <> None.
Proof. intros HL Hn H. unfold ebe_invert. replace (len l =? 0) with false by lia. apply lapack_succeeds; auto. Qed.

Lemma inverse_empty A X : inverse_of 0 A X.
Proof. intros i k Hi. lia. Qed.

Lemma bbb_inverse lapack A l : inverts lapack -> bbb_invert lapack (len l) (mat_get_values A l) <> None ->
  (len l = 1 -> restrict l A 0 0 <> 0%R) -> inverse_of (len l) (restrict l A) (blockm (bbb_invert lapack) A l).
Proof.
  intros HL H H1. unfold blockm, vals. destruct (bbb_invert lapack (len l) (mat_get_values A l)) as [X|] eqn:E; [|congruence].
  unfold bbb_invert in E. destruct (1 <? len l) eqn:E0; [apply (lapack_inverse lapack); auto; lia|].
  destruct (len l =? 1) eqn:E1.
  - apply Z.eqb_eq in E1. specialize (H1 E1). assert (EV : mat_get_values A l 0 = restrict l A 0 0) by (unfold mat_get_values; rewrite E1; reflexivity).
    destruct (Rlt_dec 0 (Rabs (mat_get_values A l 0))) as [P|P]; [|exfalso; apply P; rewrite EV; apply Rabs_pos_lt; auto].
    injection E as <-. rewrite E1. intros i k Hi Hk. replace i with 0 by lia. replace k with 0 by lia.
    change (zseq 0 1) with [0]. unfold rsum; cbn [map fold_right]. change (0 * 1 + 0) with 0. change (0 =? 0) with true. cbv iota. rewrite EV. split; field; exact H1.
  - replace (len l) with 0 by (unfold len in *; lia). apply inverse_empty.
Qed.
Lemma bbb_succeeds lapack A l : inverts lapack -> spd (len l) (restrict l A) -> bbb_invert lapack (len l) (mat_get_values A l) <> None.
Proof.
  intros HL H. unfold bbb_invert. destruct (1 <? len l) eqn:E; [apply lapack_succeeds; auto; lia|].
  destruct (len l =? 1); [|congruence]. destruct (Rlt_dec _ _); congruence.
Qed.

(** * The whole set-up *)
Section Whole.
  Variable invert : Z -> (Z -> R) -> option (Z -> R).
  Variables (n : Z) (A : Z -> Z -> R) (blocks : list (list Z)).
  Hypothesis Hin : forall l x, In l blocks -> In x l -> 0 <= x < n.

  Lemma setup_formula B : pc_setup invert A blocks = Some B ->
    (forall l, In l blocks -> invert (len l) (mat_get_values A l) <> None -> inverse_of (len l) (restrict l A) (blockm invert A l)) ->
    sum_of_inverses n A B blocks.
  Proof.
    intros H HI. destruct (fold_blocks invert A blocks _ _ H) as [H1 H2]. exists (blockm invert A). split.
    - intros l Hl. apply HI; auto. rewrite (H1 l Hl). discriminate.
    - intros x y. rewrite (qform_ext n B (fun i j => rsum (fun l => contrib invert A l i j) blocks) x y x y); auto.
      + rewrite (qform_sum n (fun l i j => contrib invert A l i j)). apply rsum_ext. intros l Hl. apply contrib_form. intros i Hi. apply (Hin l i Hl Hi).
      + intros i j Hi Hj. rewrite H2 by lia. ring.
  Qed.

  Lemma setup_zero_row B i : pc_setup invert A blocks = Some B -> 0 <= i -> (forall l, In l blocks -> ~ In i l) ->
    forall j, 0 <= j -> B i j = 0%R /\ B j i = 0%R.
  Proof.
    intros H Hi HN j Hj. destruct (fold_blocks invert A blocks _ _ H) as [_ H2].
    split; rewrite H2 by auto; rewrite rsum_zero; [ring| |ring|]; intros l Hl; apply contrib_zero; [left|right]; auto.
  Qed.
End Whole.

(** A sum of inverses of the blocks of a positive definite matrix, over blocks that cover all unknowns, is positive definite. *)
Lemma sum_spd n A B blocks : spd n A -> sum_of_inverses n A B blocks ->
  (forall i j, 0 <= i < n -> 0 <= j < n -> qform n B (fun k => if k =? i then 1%R else 0%R) (fun k => if k =? j then 1%R else 0%R) = B i j) ->
  (forall l x, In l blocks -> In x l -> 0 <= x < n) -> (forall l, In l blocks -> NoDup l) ->
  (forall i, 0 <= i < n -> exists l, In l blocks /\ In i l) -> spd n B.
Proof.
  intros HA (X & HX & HF) HE Hin HN Hcov.
  assert (HS : forall l, In l blocks -> spd (Z.of_nat (length l)) (X l)).
  { intros l Hl. apply (inverse_spd _ (restrict l A)); [|apply HX; auto]. apply (restrict_spd n); auto. intros x Hx. apply (Hin l x Hl Hx). }
  split.
  - intros i j Hi Hj. rewrite <- HE by auto. rewrite <- (HE j i) by auto. rewrite !HF. apply rsum_ext. intros l Hl.
    unfold qform. rewrite rsum_comm. apply rsum_ext. intros a Ha. apply in_zseq in Ha. apply rsum_ext. intros b Hb. apply in_zseq in Hb.
    rewrite (proj1 (HS l Hl) b a) by lia. ring.
  - intros x (i & Hi & Hx). rewrite HF. destruct (Hcov i Hi) as (l & Hl & Hil).
    assert (K : forall bl, (forall l', In l' bl -> In l' blocks) -> (0 <= rsum (fun l0 => qform (Z.of_nat (length l0)) (X l0) (fun a => x (at_ l0 a)) (fun b => x (at_ l0 b))) bl)%R).
    { induction bl as [|l' bl IH]; intros HB; [unfold rsum; cbn; lra|]. rewrite rsum_cons.
      pose proof (proj1 (spd_nonneg _ _ (fun a => x (at_ l' a)) (HS l' (HB l' (or_introl eq_refl))))). specialize (IH (fun l0 H0 => HB l0 (or_intror H0))). lra. }
    apply in_split in Hl. destruct Hl as (b1 & b2 & E). rewrite E at 1. rewrite rsum_app, rsum_cons.
    pose proof (K b1 ltac:(intros l' H'; rewrite E; apply in_or_app; auto)).
    pose proof (K b2 ltac:(intros l' H'; rewrite E; apply in_or_app; right; right; auto)).
    assert (0 < qform (Z.of_nat (length l)) (X l) (fun a => x (at_ l a)) (fun b => x (at_ l b)))%R.
    { apply (proj2 (HS l ltac:(rewrite E; apply in_or_app; right; left; auto))). destruct (in_at l i Hil) as (a & Ha & Ea). exists a. rewrite Ea. auto. }
    lra.
Qed.

Lemma qform_unit n B i j : 0 <= i < n -> 0 <= j < n -> qform n B (fun k => if k =? i then 1%R else 0%R) (fun k => if k =? j then 1%R else 0%R) = B i j.
Proof.
  intros Hi Hj. unfold qform. rewrite (rsum_ext _ _ (fun k => if k =? i then B k j else 0%R)); [apply (rsum_delta' n i (fun k => B k j) Hi)|].
  intros k _. destruct (k =? i).
  - rewrite <- (rsum_delta' n j (fun m => B k m) Hj). apply rsum_ext. intros m _. destruct (m =? j); ring.
  - apply rsum_zero. intros; ring.
Qed.

(** * A concrete inversion meeting the contract (bordering) *)
Fixpoint border (k : nat) (A : Z -> Z -> R) : option (Z -> Z -> R) :=
  match k with
  | O => Some (fun _ _ => 0%R)
  | Datatypes.S k =>
    match border k A with
    | None => None
    | Some X => let n := Z.of_nat k in
      let w i := rsum (fun j => X i j * A j n)%R (zseq 0 n) in
      let v j := rsum (fun i => A n i * X i j)%R (zseq 0 n) in
      let s := (A n n - rsum (fun i => A n i * w i)%R (zseq 0 n))%R in
      if Req_EM_T s 0 then None
      else Some (fun i j => if i =? n then (if j =? n then / s else - v j / s)%R
                            else (if j =? n then - w i / s else X i j + w i * v j / s)%R)
    end
  end.
Definition col_border (n : Z) (v : Z -> R) : option (Z -> R) :=
  match border (Z.to_nat n) (fun i j => v (i + j * n)) with None => None | Some X => Some (fun k => X (k mod n) (k / n)) end.

Lemma rsum_snoc (f : Z -> R) k : rsum f (zseq 0 (Z.of_nat (Datatypes.S k))) = (rsum f (zseq 0 (Z.of_nat k)) + f (Z.of_nat k))%R.
Proof.
  replace (Z.of_nat (Datatypes.S k)) with (Z.of_nat k + 1) by lia. rewrite zseq_app by lia. rewrite rsum_app. f_equal.
  replace (0 + Z.of_nat k) with (Z.of_nat k) by lia. change (zseq (Z.of_nat k) 1) with [Z.of_nat k + Z.of_nat 0]. unfold rsum; cbn [map fold_right]. rewrite Rplus_0_r. f_equal. lia.
Qed.
Lemma rsum_lin {T} (f g h : T -> R) c l : (forall x, In x l -> h x = f x + c * g x)%R -> (rsum h l = rsum f l + c * rsum g l)%R.
Proof. intros H. rewrite <- rsum_scal, <- rsum_plus. apply rsum_ext. exact H. Qed.
Lemma rsum_mul {T} (g h : T -> R) c l : (forall x, In x l -> h x = c * g x)%R -> (rsum h l = c * rsum g l)%R.
Proof. intros H. rewrite <- rsum_scal. apply rsum_ext. exact H. Qed.

Section Border.
  Variables (k : nat) (A X : Z -> Z -> R).
  Let n := Z.of_nat k.
  Hypothesis HX : inverse_of n A X.
  Let w i := rsum (fun j => X i j * A j n)%R (zseq 0 n).
  Let v j := rsum (fun i => A n i * X i j)%R (zseq 0 n).
  Let s := (A n n - rsum (fun i => A n i * w i)%R (zseq 0 n))%R.

  Lemma border_w i : 0 <= i < n -> rsum (fun j => A i j * w j)%R (zseq 0 n) = A i n.
  Proof. intros Hi. exact (mulv_inverse n A X (fun j => A j n) HX i Hi). Qed.
  Lemma border_v j : 0 <= j < n -> rsum (fun i => v i * A i j)%R (zseq 0 n) = A n j.
  Proof.
    intros Hj. rewrite <- (mulv_inverse n _ _ (fun i => A n i) (inverse_transpose n A X HX) j Hj). unfold mulv. apply rsum_ext. intros i _.
    rewrite Rmult_comm. f_equal. unfold v. apply rsum_ext. intros; ring.
  Qed.
  Lemma border_vw : rsum (fun j => v j * A j n)%R (zseq 0 n) = rsum (fun i => A n i * w i)%R (zseq 0 n).
  Proof.
    unfold v, w. rewrite (rsum_ext _ _ (fun j => rsum (fun i => A n i * X i j * A j n)%R (zseq 0 n))).
    - rewrite rsum_comm. apply rsum_ext. intros i _. rewrite <- rsum_scal. apply rsum_ext. intros; ring.
    - intros j _. rewrite Rmult_comm, <- rsum_scal. apply rsum_ext. intros; ring.
  Qed.

  Lemma border_step : s <> 0%R -> inverse_of (Z.of_nat (Datatypes.S k)) A
    (fun i j => if i =? n then (if j =? n then / s else - v j / s)%R else (if j =? n then - w i / s else X i j + w i * v j / s)%R).
  Proof.
    intros Hs i q Hi Hq. rewrite !rsum_snoc. fold n. rewrite !Z.eqb_refl.
    assert (L : forall j, In j (zseq 0 n) -> (j =? n) = false) by (intros j Hj; apply in_zseq in Hj; lia).
    pose proof border_vw as VW.
    assert (ES : rsum (fun j => A n j * w j)%R (zseq 0 n) = (A n n - s)%R) by (unfold s; ring).
    destruct (Z.eq_dec i n) as [->|Ni]; destruct (Z.eq_dec q n) as [->|Nq]; rewrite ?Z.eqb_refl;
      repeat match goal with H : ?x <> n |- _ => replace (x =? n) with false by lia; replace (n =? x) with false by lia; revert H end; intros; cbv iota.
    - split.
      + rewrite (rsum_mul (fun j => A n j * w j)%R _ (- / s)%R), ES; [field; auto|]. intros j Hj. rewrite (L j Hj). unfold Rdiv. ring.
      + rewrite (rsum_mul (fun j => v j * A j n)%R _ (- / s)%R), VW, ES; [field; auto|]. intros j Hj. rewrite (L j Hj). unfold Rdiv. ring.
    - split.
      + rewrite (rsum_lin (fun j => A n j * X j q)%R (fun j => A n j * w j)%R _ (v q / s)%R), ES; [fold (v q); field; auto|].
        intros j Hj. rewrite (L j Hj). unfold Rdiv. ring.
      + rewrite (rsum_mul (fun j => v j * A j q)%R _ (- / s)%R), (border_v q); [field; auto|lia|]. intros j Hj. rewrite (L j Hj). unfold Rdiv. ring.
    - split.
      + rewrite (rsum_mul (fun j => A i j * w j)%R _ (- / s)%R), (border_w i); [field; auto|lia|]. intros j Hj. rewrite (L j Hj). unfold Rdiv. ring.
      + rewrite (rsum_lin (fun j => X i j * A j n)%R (fun j => v j * A j n)%R _ (w i / s)%R), VW, ES; [fold (w i); field; auto|].
        intros j Hj. rewrite (L j Hj). unfold Rdiv. ring.
    - destruct (HX i q ltac:(lia) ltac:(lia)) as [H1 H2]. split.
      + rewrite (rsum_lin (fun j => A i j * X j q)%R (fun j => A i j * w j)%R _ (v q / s)%R), H1, (border_w i); [field; auto|lia|].
        intros j Hj. rewrite (L j Hj). unfold Rdiv. ring.
      + rewrite (rsum_lin (fun j => X i j * A j q)%R (fun j => v j * A j q)%R _ (w i / s)%R), H2, (border_v q); [field; auto|lia|].
        intros j Hj. rewrite (L j Hj). unfold Rdiv. ring.
  Qed.

  Lemma border_pivot : spd (Z.of_nat (Datatypes.S k)) A -> (0 < s)%R.
  Proof.
    intros [_ HP]. set (x := fun i => if i =? n then 1%R else (- w i)%R).
    assert (E : qform (Z.of_nat (Datatypes.S k)) A x x = s).
    { rewrite qform_mulv, rsum_snoc. fold n.
      assert (M : forall i, mulv (Z.of_nat (Datatypes.S k)) A x i = (A i n - rsum (fun j => A i j * w j) (zseq 0 n))%R).
      { intros i. unfold mulv. rewrite rsum_snoc. fold n. unfold x at 2. rewrite Z.eqb_refl.
        rewrite (rsum_mul (fun j => A i j * w j)%R _ (-1)%R); [ring|]. intros j Hj. apply in_zseq in Hj. unfold x. replace (j =? n) with false by lia. ring. }
      rewrite rsum_zero; [|intros i Hi; apply in_zseq in Hi; rewrite M, (border_w i) by lia; ring].
      rewrite M. unfold x. rewrite Z.eqb_refl. unfold s. ring. }
    rewrite <- E. apply HP. exists n. split; [lia|]. unfold x. rewrite Z.eqb_refl. lra.
  Qed.
End Border.

Lemma border_inverse k : forall A X, border k A = Some X -> inverse_of (Z.of_nat k) A X.
Proof.
  induction k as [|k IH]; intros A X H; [apply inverse_empty|]. cbn [border] in H. destruct (border k A) as [Y|] eqn:E; [|discriminate].
  cbv zeta in H. destruct (Req_EM_T _ 0) as [D|D]; [discriminate|]. injection H as <-. apply (border_step k A Y (IH A Y E) D).
Qed.
Lemma border_succeeds k : forall A, spd (Z.of_nat k) A -> border k A <> None.
Proof.
  induction k as [|k IH]; intros A H; [discriminate|]. cbn [border].
  assert (HA : spd (Z.of_nat k) A).
  { pose proof (restrict_spd _ A (zseq 0 (Z.of_nat k)) H (NoDup_zseq _ _)) as K. rewrite length_zseq in K. rewrite Z2Nat.id in K by lia.
    apply (spd_ext _ (restrict (zseq 0 (Z.of_nat k)) A)); [|apply K; intros x Hx; apply in_zseq in Hx; lia].
    intros i j Hi Hj. unfold restrict, at_. rewrite !nth_zseq by lia. f_equal; lia. }
  pose proof (IH A HA) as N0. destruct (border k A) as [Y|] eqn:E; [|congruence]. cbv zeta.
  destruct (Req_EM_T _ 0) as [D|D]; [|discriminate]. exfalso. pose proof (border_pivot k A Y (border_inverse k A Y E) H) as P. cbv zeta in P. lra.
Qed.

Lemma col_border_inverts : inverts col_border.
Proof.
  split.
  - intros n v X Hn H. unfold col_border in H. destruct (border _ _) as [Y|] eqn:E; [|discriminate]. injection H as <-.
    apply border_inverse in E. rewrite Z2Nat.id in E by lia. revert E. apply inverse_ext; [reflexivity|].
    intros i j Hi Hj. rewrite Z.div_add, Z.mod_add by lia. rewrite Z.div_small, Z.mod_small by lia. reflexivity.
  - intros n v Hn H. unfold col_border. pose proof (border_succeeds (Z.to_nat n) (fun i j => v (i + j * n))) as K. rewrite Z2Nat.id in K by lia.
    specialize (K H). destruct (border _ _); [discriminate|congruence].
Qed.
