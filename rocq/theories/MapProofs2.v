(** Tensor products, rationalisation and the geometry map. *)
From Coq Require Import ZArith List Bool Lia Reals Lra Psatz.
From Coq Require Import ZifyBool ZifyNat.
From Coquelicot Require Import Coquelicot.
From Verif Require Import Prelude GridSpec GridProofs MapModel MapSpec MapProofs.
Import ListNotations.
Open Scope R_scope.

(** ** Loops are sums *)
Lemma loop_sum n G g s : (forall i, (1 <= i <= n)%Z -> forall s, G i s = s + g i) -> loop n G s = s + S_ n g.
Proof.
  intros H. unfold loop.
  assert (K : forall l s, (forall i, In i l -> (1 <= i <= n)%Z) -> fold_left (fun s i => G i s) l s = s + rsum g l).
  { induction l as [|a l IH]; intros s0 Hl; [unfold rsum; simpl; ring|]. cbn [fold_left]. rewrite IH by (intros; apply Hl; right; auto).
    rewrite H by (apply Hl; left; auto). rewrite rsum_cons. ring. }
  apply K. intros i Hi. apply in_zseq in Hi. lia.
Qed.
Lemma fsum_S n f : fsum n f = S_ n f.
Proof. unfold fsum. rewrite (loop_sum n _ f) by auto. ring. Qed.

Lemma S_ext n f g : (forall i, (1 <= i <= n)%Z -> f i = g i) -> S_ n f = S_ n g.
Proof. intros H. apply rsum_ext. intros i Hi. apply in_zseq in Hi. apply H. lia. Qed.
Lemma diff_S n m (f : Z -> pt -> R) x df : (forall a, (1 <= a <= m)%Z -> diff_at n (f a) x (df a)) ->
  diff_at n (fun y => S_ m (fun a => f a y)) x (fun i => S_ m (fun a => df a i)).
Proof. intros H. apply diff_rsum. intros a Ha. apply in_zseq in Ha. apply H. lia. Qed.

(** ** Rationalisation *)
Section Rat.
  Variables (dim order nen : Z) (W : Z -> R) (N : pt -> nders) (x : pt).
  Hypothesis HJ : jet dim order nen N x.
  Hypothesis HS : symmetric dim order nen (N x).
  Let D0 := fun y => S_ nen (fun a => W a * n0 (N y) a).
  Let D1 := fun y i => S_ nen (fun a => W a * n1 (N y) i a).
  Let D2 := fun y i j => S_ nen (fun a => W a * n2 (N y) i j a).
  Let D3 := fun y i j k => S_ nen (fun a => W a * n3 (N y) i j k a).
  Hypothesis H0 : D0 x <> 0.
  Let R := fun y => rationalize order nen W (N y).
  Let d := fun i => (1 <= i <= dim)%Z.
  Let r1 := fun y i a => (W a * n1 (N y) i a - n0 (R y) a * D1 y i) / D0 y.
  Let r2 := fun y i j a => (W a * n2 (N y) i j a - n0 (R y) a * D2 y i j - r1 y i a * D1 y j - r1 y j a * D1 y i) / D0 y.

  Lemma rat0 y a : n0 (R y) a = W a * n0 (N y) a / D0 y.
  Proof. unfold R, rationalize. cbn [n0]. rewrite fsum_S. auto. Qed.
  Lemma rat1 y i a : (1 <= order)%Z -> n1 (R y) i a = r1 y i a.
  Proof. intros Ho. unfold r1. rewrite rat0. unfold R, rationalize. cbn [n1]. replace (order <? 1)%Z with false by lia. rewrite !fsum_S. auto. Qed.
  Lemma rat2 y i j a : (2 <= order)%Z -> n2 (R y) i j a = r2 y i j a.
  Proof.
    intros Ho. unfold r2, r1. rewrite rat0. unfold R, rationalize. cbn [n2]. replace (order <? 2)%Z with false by lia. rewrite !fsum_S. auto.
  Qed.
  Lemma rat3 y i j k a : (3 <= order)%Z -> n3 (R y) i j k a =
    (W a * n3 (N y) i j k a - n0 (R y) a * D3 y i j k - r1 y i a * D2 y j k - r1 y j a * D2 y i k - r1 y k a * D2 y i j
     - r2 y j k a * D1 y i - r2 y i k a * D1 y j - r2 y i j a * D1 y k) / D0 y.
  Proof.
    intros Ho. unfold r2, r1. rewrite rat0. unfold R, rationalize. cbn [n3]. replace (order <? 3)%Z with false by lia. rewrite !fsum_S. auto.
  Qed.

  Lemma dD0 : (1 <= order)%Z -> diff_at dim D0 x (fun i => D1 x i).
  Proof. intros Ho. apply (diff_S dim nen (fun a y => W a * n0 (N y) a) x (fun a i => W a * n1 (N x) i a)). intros a Ha. apply diff_scal. apply (HJ a Ha). auto. Qed.
  Lemma dD1 i : (2 <= order)%Z -> d i -> diff_at dim (fun y => D1 y i) x (fun j => D2 x j i).
  Proof. intros Ho Hi. apply (diff_S dim nen (fun a y => W a * n1 (N y) i a) x (fun a j => W a * n2 (N x) j i a)). intros a Ha. apply diff_scal. apply (HJ a Ha); auto. Qed.
  Lemma dD2 i j : (3 <= order)%Z -> d i -> d j -> diff_at dim (fun y => D2 y j i) x (fun k => D3 x k j i).
  Proof. intros Ho Hi Hj. apply (diff_S dim nen (fun a y => W a * n2 (N y) j i a) x (fun a k => W a * n3 (N x) k j i a)). intros a Ha. apply diff_scal. apply (HJ a Ha); auto. Qed.
  Lemma D2_sym i j : (2 <= order)%Z -> d i -> d j -> D2 x i j = D2 x j i.
  Proof. intros Ho Hi Hj. apply S_ext. intros a Ha. f_equal. apply (HS a Ha); auto. Qed.
  Lemma D3_sym i j k : (3 <= order)%Z -> d i -> d j -> d k -> D3 x i j k = D3 x j i k /\ D3 x i j k = D3 x i k j.
  Proof. intros Ho Hi Hj Hk. split; apply S_ext; intros a Ha; f_equal; apply (HS a Ha); auto. Qed.

  Lemma dR0 a : (1 <= order)%Z -> (1 <= a <= nen)%Z -> diff_at dim (fun y => n0 (R y) a) x (fun i => r1 x i a).
  Proof.
    intros Ho Ha. eapply diff_ext; [intros y; symmetry; apply rat0|].
    eapply diff_grad; [|apply (diff_div dim _ _ x _ _ H0 (diff_scal dim (W a) _ x _ (proj1 (HJ a Ha) Ho)) (dD0 Ho))].
    intros i Hi. cbv beta. unfold r1. rewrite rat0. auto.
  Qed.
  Lemma dr1 i a : (2 <= order)%Z -> d i -> (1 <= a <= nen)%Z -> diff_at dim (fun y => r1 y i a) x (fun j => r2 x j i a).
  Proof.
    intros Ho Hi Ha. unfold r1.
    eapply diff_grad; [|apply (diff_div dim _ _ x _ _ H0
       (diff_minus dim _ _ x _ _ (diff_scal dim (W a) _ x _ (proj1 (proj2 (HJ a Ha)) Ho i Hi)) (diff_mult dim _ _ x _ _ (dR0 a ltac:(lia) Ha) (dD1 i Ho Hi))) (dD0 ltac:(lia)))].
    intros j Hj. cbv beta. unfold r2. fold (r1 x i a). unfold Rdiv. ring.
  Qed.
  Lemma r2_sym i j a : (2 <= order)%Z -> d i -> d j -> (1 <= a <= nen)%Z -> r2 x i j a = r2 x j i a.
  Proof. intros Ho Hi Hj Ha. unfold r2. rewrite (proj1 (HS a Ha) Ho i j Hi Hj), (D2_sym i j) by auto. unfold Rdiv. ring. Qed.
  Lemma dr2 i j a : (3 <= order)%Z -> d i -> d j -> (1 <= a <= nen)%Z -> diff_at dim (fun y => r2 y j i a) x (fun k => n3 (R x) k j i a).
  Proof.
    intros Ho Hi Hj Ha. unfold r2.
    pose proof (proj1 (proj2 (proj2 (HJ a Ha))) Ho i j Hi Hj) as A.
    pose proof (diff_div dim _ _ x _ _ H0
       (diff_minus dim _ _ x _ _ (diff_minus dim _ _ x _ _ (diff_minus dim _ _ x _ _ (diff_scal dim (W a) _ x _ A)
          (diff_mult dim _ _ x _ _ (dR0 a ltac:(lia) Ha) (dD2 i j Ho Hi Hj)))
          (diff_mult dim _ _ x _ _ (dr1 j a ltac:(lia) Hj Ha) (dD1 i ltac:(lia) Hi)))
          (diff_mult dim _ _ x _ _ (dr1 i a ltac:(lia) Hi Ha) (dD1 j ltac:(lia) Hj))) (dD0 ltac:(lia))) as B.
    eapply diff_grad; [|exact B].
    intros k Hk. cbv beta. rewrite rat3 by lia. fold (r2 x j i a).
    unfold Rdiv. apply Rmult_eq_compat_r. ring.
  Qed.
  Lemma r3_sym i j k a : (3 <= order)%Z -> d i -> d j -> d k -> (1 <= a <= nen)%Z ->
    n3 (R x) i j k a = n3 (R x) j i k a /\ n3 (R x) i j k a = n3 (R x) i k j a.
  Proof.
    intros Ho Hi Hj Hk Ha. destruct (HS a Ha) as [_ S3]. destruct (S3 Ho i j k Hi Hj Hk) as [S3a S3b]. destruct (D3_sym i j k Ho Hi Hj Hk) as [Da Db].
    rewrite !rat3 by lia. split.
    - rewrite <- S3a, <- Da. rewrite (D2_sym i j), (r2_sym i j) by (auto; lia). unfold Rdiv. apply Rmult_eq_compat_r. ring.
    - rewrite <- S3b, <- Db. rewrite (D2_sym j k), (r2_sym j k) by (auto; lia). unfold Rdiv. apply Rmult_eq_compat_r. ring.
  Qed.

  Lemma rat_jet : jet dim (Z.min order 3) nen R x.
  Proof.
    intros a Ha. split; [|split; [|split]].
    - intros Ho. eapply diff_grad; [|apply dR0; [lia|auto]]. intros i Hi. cbv beta. rewrite rat1 by lia. auto.
    - intros Ho i Hi. eapply diff_ext; [intros y; symmetry; apply rat1; lia|]. eapply diff_grad; [|apply dr1; [lia|auto|auto]].
      intros j Hj. cbv beta. rewrite rat2 by lia. auto.
    - intros Ho i j Hi Hj. eapply diff_ext; [intros y; symmetry; apply rat2; lia|]. apply dr2; auto. lia.
    - intros; lia.
  Qed.
  Lemma rat_sym : symmetric dim order nen (R x).
  Proof.
    intros a Ha. split.
    - intros Ho i j Hi Hj. rewrite !rat2 by lia. apply r2_sym; auto.
    - intros Ho i j k Hi Hj Hk. apply r3_sym; auto.
  Qed.
  Lemma rat_sum0 : S_ nen (fun a => n0 (R x) a) = 1.
  Proof.
    transitivity (S_ nen (fun a => / D0 x * (W a * n0 (N x) a))); [apply S_ext; intros; rewrite rat0; unfold Rdiv; ring|].
    rewrite rsum_scal. fold (D0 x). field. exact H0.
  Qed.
  Lemma sum_r1 i : S_ nen (fun a => r1 x i a) = 0.
  Proof.
    transitivity (/ D0 x * (S_ nen (fun a => W a * n1 (N x) i a) + - D1 x i * S_ nen (fun a => n0 (R x) a))).
    - rewrite <- rsum_scal, <- rsum_plus, <- rsum_scal. apply S_ext. intros. unfold r1, Rdiv. ring.
    - rewrite rat_sum0. fold (D1 x i). ring.
  Qed.
  Lemma sum_r2 i j : S_ nen (fun a => r2 x i j a) = 0.
  Proof.
    transitivity (/ D0 x * (S_ nen (fun a => W a * n2 (N x) i j a) + (- D2 x i j * S_ nen (fun a => n0 (R x) a)
       + (- D1 x j * S_ nen (fun a => r1 x i a) + - D1 x i * S_ nen (fun a => r1 x j a))))).
    - rewrite <- !rsum_scal, <- !rsum_plus, <- rsum_scal. apply S_ext. intros. unfold r2, Rdiv. ring.
    - rewrite rat_sum0, !sum_r1. fold (D2 x i j). ring.
  Qed.
  Lemma sum_r3 i j k : (3 <= order)%Z -> S_ nen (fun a => n3 (R x) i j k a) = 0.
  Proof.
    intros Ho.
    transitivity (/ D0 x * (S_ nen (fun a => W a * n3 (N x) i j k a) + (- D3 x i j k * S_ nen (fun a => n0 (R x) a)
       + (- D2 x j k * S_ nen (fun a => r1 x i a) + (- D2 x i k * S_ nen (fun a => r1 x j a) + (- D2 x i j * S_ nen (fun a => r1 x k a)
       + (- D1 x i * S_ nen (fun a => r2 x j k a) + (- D1 x j * S_ nen (fun a => r2 x i k a) + - D1 x k * S_ nen (fun a => r2 x i j a))))))))).
    - rewrite <- !rsum_scal, <- !rsum_plus, <- rsum_scal. apply S_ext. intros. rewrite rat3 by lia. unfold Rdiv. ring.
    - rewrite rat_sum0, !sum_r1, !sum_r2. fold (D3 x i j k). ring.
  Qed.
End Rat.

(** ** The geometry map *)
Lemma geo0 order nen X M old i : n0 (geometry_map order nen X M old) i = S_ nen (fun a => X i a * n0 M a).
Proof. unfold geometry_map. cbn [n0]. rewrite (loop_sum nen _ (fun a => X i a * n0 M a)) by auto. ring. Qed.
Lemma geo1 order nen X M old q i : (1 <= order)%Z -> n1 (geometry_map order nen X M old) q i = S_ nen (fun a => X i a * n1 M q a).
Proof. intros Ho. unfold geometry_map. cbn [n1]. replace (order <? 1)%Z with false by lia. rewrite (loop_sum nen _ (fun a => X i a * n1 M q a)) by auto. ring. Qed.
Lemma geo2 order nen X M old q r i : (2 <= order)%Z -> n2 (geometry_map order nen X M old) q r i = S_ nen (fun a => X i a * n2 M q r a).
Proof. intros Ho. unfold geometry_map. cbn [n2]. replace (order <? 2)%Z with false by lia. rewrite (loop_sum nen _ (fun a => X i a * n2 M q r a)) by auto. ring. Qed.
Lemma geo3 order nen X M old q r t i : (3 <= order)%Z -> n3 (geometry_map order nen X M old) q r t i = S_ nen (fun a => X i a * n3 M q r t a).
Proof. intros Ho. unfold geometry_map. cbn [n3]. replace (order <? 3)%Z with false by lia. rewrite (loop_sum nen _ (fun a => X i a * n3 M q r t a)) by auto. ring. Qed.
Lemma geo4 order nen X M old q r t v i : (4 <= order)%Z -> n4 (geometry_map order nen X M old) q r t v i = S_ nen (fun a => X i a * n4 M q r t v a).
Proof. intros Ho. unfold geometry_map. cbn [n4]. replace (order <? 4)%Z with false by lia. rewrite (loop_sum nen _ (fun a => X i a * n4 M q r t v a)) by auto. ring. Qed.

Lemma geo_jet dim order nen nsd C (N : pt -> nders) (old : pt -> nders) x : jet dim order nen N x ->
  jet dim order nsd (fun y => geometry_map order nen C (N y) (old y)) x.
Proof.
  intros HJ i Hi. split; [|split; [|split]].
  - intros Ho. eapply diff_ext; [intros y; symmetry; apply geo0|]. eapply diff_grad; [intros q Hq; symmetry; apply geo1; lia|].
    apply (diff_S dim nen (fun a y => C i a * n0 (N y) a) x (fun a q => C i a * n1 (N x) q a)). intros a Ha. apply diff_scal. apply (HJ a Ha). auto.
  - intros Ho q Hq. eapply diff_ext; [intros y; symmetry; apply geo1; lia|]. eapply diff_grad; [intros r Hr; symmetry; apply geo2; lia|].
    apply (diff_S dim nen (fun a y => C i a * n1 (N y) q a) x (fun a r => C i a * n2 (N x) r q a)). intros a Ha. apply diff_scal. apply (HJ a Ha); auto.
  - intros Ho q r Hq Hr. eapply diff_ext; [intros y; symmetry; apply geo2; lia|]. eapply diff_grad; [intros t Ht; symmetry; apply geo3; lia|].
    apply (diff_S dim nen (fun a y => C i a * n2 (N y) r q a) x (fun a t => C i a * n3 (N x) t r q a)). intros a Ha. apply diff_scal. apply (HJ a Ha); auto.
  - intros Ho q r t Hq Hr Ht. eapply diff_ext; [intros y; symmetry; apply geo3; lia|]. eapply diff_grad; [intros v Hv; symmetry; apply geo4; lia|].
    apply (diff_S dim nen (fun a y => C i a * n3 (N y) t r q a) x (fun a v => C i a * n4 (N x) v t r q a)). intros a Ha. apply diff_scal. apply (HJ a Ha); auto.
Qed.
Lemma geo_sym dim order nen nsd C N old : symmetric dim order nen N -> symmetric dim order nsd (geometry_map order nen C N old).
Proof.
  intros HS i Hi. split.
  - intros Ho q r Hq Hr. rewrite !geo2 by lia. apply S_ext. intros a Ha. f_equal. apply (HS a Ha); auto.
  - intros Ho q r t Hq Hr Ht. rewrite !geo3 by lia. split; apply S_ext; intros a Ha; f_equal; apply (HS a Ha); auto.
Qed.

(** ** Tensor products *)
Definition cnt (c : Z) (idx : list Z) : Z := Z.of_nat (length (filter (Z.eqb c) idx)).
Fixpoint all_idx (dim : Z) (k : nat) : list (list Z) :=
  match k with
  | 0%nat => [[]]
  | S k => flat_map (fun l => map (fun c => c :: l) (zseq 1 dim)) (all_idx dim k)
  end.
Lemma all_idx_in dim idx : List.Forall (fun c => 1 <= c <= dim)%Z idx -> In idx (all_idx dim (length idx)).
Proof.
  induction idx as [|c l IH]; intros H; [left; auto|]. inversion H; subst. cbn [length all_idx]. apply in_flat_map. exists l. split; auto.
  apply in_map_iff. exists c. split; auto. apply in_zseq. lia.
Qed.
Definition tens_ok (dim : Z) : bool :=
  forallb (fun idx => match find (fun e => zlist_eqb (fst e) idx) (tens_table dim) with
                      | Some (_, o) => zlist_eqb o (map (fun c => cnt c idx) (zseq 1 dim))
                      | None => false
                      end) (flat_map (all_idx dim) [0; 1; 2; 3; 4]%nat).
Lemma zlist_eqb_eq l1 : forall l2, zlist_eqb l1 l2 = true -> l1 = l2.
Proof.
  induction l1 as [|a l IH]; intros [|b l2] H; try discriminate; auto. cbn in H. apply andb_true_iff in H. destruct H as [H1 H2].
  apply Z.eqb_eq in H1. f_equal; auto.
Qed.
Lemma tens_tables_ok dim : (1 <= dim <= 3)%Z -> tens_ok dim = true.
Proof. intros H. assert (C : (dim = 1 \/ dim = 2 \/ dim = 3)%Z) by lia. destruct C as [-> | [-> | ->]]; vm_compute; reflexivity. Qed.
Definition tens_prod (dim : Z) (B : Z -> Z -> Z -> R) (idx : list Z) (ia ja ka : Z) : R :=
  if (dim =? 1)%Z then B 1%Z (cnt 1 idx) ia
  else if (dim =? 2)%Z then B 1%Z (cnt 1 idx) ia * B 2%Z (cnt 2 idx) ja
  else B 1%Z (cnt 1 idx) ia * B 2%Z (cnt 2 idx) ja * B 3%Z (cnt 3 idx) ka.
Lemma tens_entry_prod dim B idx ia ja ka old : (1 <= dim <= 3)%Z -> List.Forall (fun c => 1 <= c <= dim)%Z idx -> (length idx <= 4)%nat ->
  tens_entry dim B idx ia ja ka old = tens_prod dim B idx ia ja ka.
Proof.
  intros Hd Hi Hl. pose proof (tens_tables_ok dim Hd) as T. unfold tens_ok in T. rewrite forallb_forall in T.
  assert (I : In idx (flat_map (all_idx dim) [0; 1; 2; 3; 4]%nat)).
  { apply in_flat_map. exists (length idx). split; [|apply all_idx_in; auto].
    assert (C : (length idx = 0 \/ length idx = 1 \/ length idx = 2 \/ length idx = 3 \/ length idx = 4)%nat) by lia.
    destruct C as [-> | [-> | [-> | [-> | ->]]]]; simpl; tauto. }
  specialize (T idx I). unfold tens_entry. destruct (find _ _) as [[e o]|]; [|discriminate]. apply zlist_eqb_eq in T. subst o.
  unfold tens_prod. assert (C : (dim = 1 \/ dim = 2 \/ dim = 3)%Z) by lia. destruct C as [-> | [-> | ->]]; reflexivity.
Qed.

Section Tens.
  Variables (dim order : Z) (Bf : Z -> Z -> Z -> R -> R) (x : pt).
  Hypothesis Hd : (1 <= dim <= 3)%Z.
  Variables (ia ja ka : Z).
  Let ix := fun d => if (d =? 1)%Z then ia else if (d =? 2)%Z then ja else ka.
  Hypothesis HB : forall d o, (1 <= d <= dim)%Z -> (0 <= o < order)%Z -> is_derive (Bf d o (ix d)) (x d) (Bf d (o+1)%Z (ix d) (x d)).
  Let B := fun (y : pt) d o i => Bf d o i (y d).

  Lemma cnt_cons c l i : cnt i (c :: l) = (cnt i l + if (i =? c)%Z then 1 else 0)%Z.
  Proof. unfold cnt. cbn [filter]. destruct (i =? c)%Z; cbn [length]; lia. Qed.
  Lemma cnt_bound i l : (0 <= cnt i l <= Z.of_nat (length l))%Z.
  Proof. unfold cnt. assert (length (filter (Z.eqb i) l) <= length l)%nat by (induction l as [|b l IH]; cbn [filter length]; [lia|destruct (Z.eqb i b); cbn [length]; lia]). lia. Qed.

  Lemma dfac d o : (1 <= d <= dim)%Z -> (0 <= o < order)%Z ->
    diff_at dim (fun y => Bf d o (ix d) (y d)) x (fun c => Bf d (o + 1)%Z (ix d) (x d) * kd c d).
  Proof. intros H1 H2. apply (diff_comp1 dim (Bf d o (ix d)) (fun y => y d) x); [apply HB; auto|apply diff_coord; auto]. Qed.

  Lemma tens_diff idx : (Z.of_nat (length idx) < order)%Z ->
    diff_at dim (fun y => tens_prod dim (B y) idx ia ja ka) x (fun c => tens_prod dim (B x) (c :: idx) ia ja ka).
  Proof.
    intros Hl. assert (K : forall d, (0 <= cnt d idx < order)%Z) by (intros d; pose proof (cnt_bound d idx); lia).
    assert (C : (dim = 1 \/ dim = 2 \/ dim = 3)%Z) by lia.
    unfold tens_prod, B. destruct C as [E | [E | E]]; rewrite E; cbn [Z.eqb].
    - change (1 =? 1)%Z with true. cbv iota. pose proof (dfac 1 (cnt 1 idx) ltac:(lia) (K 1%Z)) as F1. rewrite E in F1. change (ix 1) with ia in F1.
      eapply diff_grad; [|exact F1]. intros c Hc. cbv beta. rewrite cnt_cons. unfold kd. replace c with 1%Z by lia. simpl. ring.
    - change (2 =? 1)%Z with false. change (2 =? 2)%Z with true. cbv iota.
      pose proof (dfac 1 (cnt 1 idx) ltac:(lia) (K 1%Z)) as F1. pose proof (dfac 2 (cnt 2 idx) ltac:(lia) (K 2%Z)) as F2. rewrite E in F1, F2. change (ix 1) with ia in F1. change (ix 2) with ja in F2.
      eapply diff_grad; [|exact (diff_mult 2 _ _ x _ _ F1 F2)]. intros c Hc. cbv beta. rewrite !cnt_cons. unfold kd.
      assert (CC : (c = 1 \/ c = 2)%Z) by lia. destruct CC as [-> | ->]; simpl; rewrite ?Z.add_0_r; ring.
    - change (3 =? 1)%Z with false. change (3 =? 2)%Z with false. cbv iota.
      pose proof (dfac 1 (cnt 1 idx) ltac:(lia) (K 1%Z)) as F1. pose proof (dfac 2 (cnt 2 idx) ltac:(lia) (K 2%Z)) as F2. pose proof (dfac 3 (cnt 3 idx) ltac:(lia) (K 3%Z)) as F3.
      rewrite E in F1, F2, F3. change (ix 1) with ia in F1. change (ix 2) with ja in F2. change (ix 3) with ka in F3.
      eapply diff_grad; [|exact (diff_mult 3 _ _ x _ _ (diff_mult 3 _ _ x _ _ F1 F2) F3)]. intros c Hc. cbv beta. rewrite !cnt_cons. unfold kd.
      assert (CC : (c = 1 \/ c = 2 \/ c = 3)%Z) by lia. destruct CC as [-> | [-> | ->]]; simpl; rewrite ?Z.add_0_r; ring.
  Qed.
End Tens.

Lemma tens_prod_perm dim B l l' ia ja ka : Permutation.Permutation l l' -> tens_prod dim B l ia ja ka = tens_prod dim B l' ia ja ka.
Proof.
  intros P. assert (C : forall c, cnt c l = cnt c l').
  { intros c. unfold cnt. f_equal. induction P; cbn [filter]; auto.
    - destruct (Z.eqb c x); cbn [length]; auto.
    - destruct (Z.eqb c x), (Z.eqb c y); cbn [length]; auto.
    - congruence. }
  unfold tens_prod. rewrite !C. auto.
Qed.

Section TensJet.
  Variables (dim order ina jna kna : Z) (Bf : Z -> Z -> Z -> R -> R) (old : pt -> nders).
  Hypothesis Hd : (1 <= dim <= 3)%Z.
  Hypothesis Hna : (1 <= ina)%Z /\ (1 <= jna)%Z /\ (1 <= kna)%Z.
  Hypothesis Hdim : ((dim < 2)%Z -> jna = 1%Z) /\ ((dim < 3)%Z -> kna = 1%Z).
  Let na := fun d => if (d =? 1)%Z then ina else if (d =? 2)%Z then jna else kna.
  Let N := fun y : pt => basis_funs dim order ina jna (fun d o i => Bf d o i (y d)) (old y).
  Let nd := fun a d => if (d =? 1)%Z then node_i ina a else if (d =? 2)%Z then node_j ina jna a else node_k ina jna a.
  Let TP := fun y idx a => tens_prod dim (fun d o i => Bf d o i ((y : pt) d)) idx (node_i ina a) (node_j ina jna a) (node_k ina jna a).

  Lemma node_range a d : (1 <= a <= ina * jna * kna)%Z -> (1 <= d)%Z -> (1 <= nd a d <= na d)%Z.
  Proof.
    intros Ha H1. unfold nd, na, node_i, node_j, node_k. destruct Hna as (I1 & J1 & K1).
    destruct (d =? 1)%Z; [pose proof (Z.mod_pos_bound (a-1) ina ltac:(lia)); lia|].
    destruct (d =? 2)%Z; [pose proof (Z.mod_pos_bound ((a-1)/ina) jna ltac:(lia)); lia|].
    pose proof (Z.div_pos (a-1) (ina*jna) ltac:(lia) ltac:(nia)). assert ((a-1) / (ina*jna) < kna)%Z by (apply Z.div_lt_upper_bound; nia). lia.
  Qed.
  Lemma bf0 y a : n0 (N y) a = TP y [] a.
  Proof. unfold N, basis_funs. cbn [n0]. apply tens_entry_prod; auto; simpl; lia. Qed.
  Lemma bf1 y i a : (1 <= order)%Z -> (1 <= i <= dim)%Z -> n1 (N y) i a = TP y [i] a.
  Proof. intros Ho Hi. unfold N, basis_funs. cbn [n1]. replace (order <? 1)%Z with false by lia. apply tens_entry_prod; auto; simpl; try lia. Qed.
  Lemma bf2 y i j a : (2 <= order)%Z -> (1 <= i <= dim)%Z -> (1 <= j <= dim)%Z -> n2 (N y) i j a = TP y [i; j] a.
  Proof. intros Ho Hi Hj. unfold N, basis_funs. cbn [n2]. replace (order <? 2)%Z with false by lia. apply tens_entry_prod; auto; simpl; try lia. Qed.
  Lemma bf3 y i j k a : (3 <= order)%Z -> (1 <= i <= dim)%Z -> (1 <= j <= dim)%Z -> (1 <= k <= dim)%Z -> n3 (N y) i j k a = TP y [i; j; k] a.
  Proof. intros Ho Hi Hj Hk. unfold N, basis_funs. cbn [n3]. replace (order <? 3)%Z with false by lia. apply tens_entry_prod; auto; simpl; try lia. Qed.
  Lemma bf4 y i j k l a : (4 <= order)%Z -> (1 <= i <= dim)%Z -> (1 <= j <= dim)%Z -> (1 <= k <= dim)%Z -> (1 <= l <= dim)%Z -> n4 (N y) i j k l a = TP y [i; j; k; l] a.
  Proof. intros Ho Hi Hj Hk Hl. unfold N, basis_funs. cbn [n4]. replace (order <? 4)%Z with false by lia. apply tens_entry_prod; auto; simpl; try lia. Qed.

  Lemma basis_jet x : (forall d o i, (1 <= d <= dim)%Z -> (0 <= o < order)%Z -> (1 <= i <= na d)%Z -> is_derive (Bf d o i) (x d) (Bf d (o+1)%Z i (x d))) ->
    jet dim order (ina * jna * kna) N x.
  Proof.
    intros HB a Ha.
    assert (T : forall idx, (Z.of_nat (length idx) < order)%Z -> diff_at dim (fun y => TP y idx a) x (fun c => TP x (c :: idx) a)).
    { intros idx Hl. unfold TP. apply (tens_diff dim order Bf x Hd); auto. intros d o H1 H2. apply HB; auto. apply (node_range a d); lia. }
    split; [|split; [|split]].
    - intros Ho. eapply diff_ext; [intros y; symmetry; apply bf0|]. eapply diff_grad; [|apply T; simpl; lia]. intros c Hc. cbv beta. rewrite bf1; auto.
    - intros Ho i Hi. eapply diff_ext; [intros y; symmetry; apply bf1; auto; lia|]. eapply diff_grad; [|apply T; simpl; lia]. intros c Hc. cbv beta. rewrite bf2; auto.
    - intros Ho i j Hi Hj. eapply diff_ext; [intros y; symmetry; apply bf2; auto; lia|]. eapply diff_grad; [|apply T; simpl; lia]. intros c Hc. cbv beta. rewrite bf3; auto.
    - intros Ho i j k Hi Hj Hk. eapply diff_ext; [intros y; symmetry; apply bf3; auto; lia|]. eapply diff_grad; [|apply T; simpl; lia]. intros c Hc. cbv beta. rewrite bf4; auto.
  Qed.
  Lemma basis_sym x : symmetric dim order (ina * jna * kna) (N x).
  Proof.
    intros a Ha. split.
    - intros Ho i j Hi Hj. rewrite !bf2 by auto. apply tens_prod_perm. apply Permutation.perm_swap.
    - intros Ho i j k Hi Hj Hk. rewrite !bf3 by auto. split; apply tens_prod_perm; [apply Permutation.perm_swap|apply Permutation.perm_skip, Permutation.perm_swap].
  Qed.
End TensJet.
