From Coq Require Import ZArith List Bool Reals Lia Lra FunctionalExtensionality.
From Verif Require Import Prelude RealOrd AxisModel AxisInitModel AxisInitProofs AxisProofs AxisProofs2 RuleModel OptModel OptSpec.
Import ListNotations.
Open Scope Z_scope.

Lemma bind_ok : forall A (x : status * A) f a', bind x f = (Ok, a') -> exists a, x = (Ok, a) /\ f a = (Ok, a').
Proof. intros A [s a] f a' H. destruct s; cbn in H; try discriminate. eauto. Qed.

Lemma for_each_err : forall A l (f : Z -> A -> status * A) s a, s <> Ok ->
  fold_left (fun x i => bind x (f i)) l (s, a) = (s, a).
Proof. intros A l f s a Hs. induction l as [|i l IH]; [reflexivity|]. cbn [fold_left]. destruct s; cbn [bind]; auto; congruence. Qed.

Lemma for_each_cons : forall A i l (f : Z -> A -> status * A) a,
  for_each (i :: l) f a = bind (f i a) (for_each l f).
Proof.
  intros A i l f a. unfold for_each. cbn [fold_left bind]. destruct (f i a) as [s b].
  destruct s; cbn [bind]; try reflexivity; apply for_each_err; discriminate.
Qed.

(** Loops that treat every direction separately. *)
Section Componentwise.
  Context {A B : Type}.
  Variables (put : (Z -> B) -> A) (f : Z -> A -> status * A) (F : Z -> B -> status * B).

  Definition cw l := forall i h, In i l -> f i (put h) = let '(s, b) := F i (h i) in (s, put (upd h i b)).

  Lemma cw_run : forall l h a', cw l -> NoDup l -> for_each l f (put h) = (Ok, a') ->
    exists h', a' = put h' /\ (forall i, In i l -> F i (h i) = (Ok, h' i)) /\ (forall i, ~ In i l -> h' i = h i).
  Proof.
    induction l as [|i l IH]; intros h a' Hcw Hnd H.
    - cbn in H. injection H as <-. exists h. split; [reflexivity|]. split; [intros i []|auto].
    - rewrite for_each_cons in H. apply bind_ok in H. destruct H as (a & Ha & H).
      rewrite (Hcw i h (or_introl eq_refl)) in Ha. destruct (F i (h i)) as [s b] eqn:EF.
      injection Ha as Hs Ha. subst s a. inversion Hnd as [|? ? Hni Hnd']; subst.
      destruct (IH (upd h i b) a') as (h' & E & H1 & H2); auto.
      { intros j k Hj. apply Hcw. right; auto. }
      exists h'. split; [exact E|]. split.
      + intros j [<-|Hj].
        * rewrite EF, H2 by auto. rewrite upd_same. reflexivity.
        * rewrite <- H1 by auto. rewrite upd_other by (intros ->; auto). reflexivity.
      + intros j Hj. rewrite H2 by (intros K; apply Hj; right; auto).
        apply upd_other. intros ->. apply Hj. left; auto.
  Qed.

  Lemma cw_total : forall l h k, cw l -> NoDup l -> (forall i, In i l -> F i (h i) = (Ok, k i)) ->
    exists h', for_each l f (put h) = (Ok, put h') /\ (forall i, In i l -> h' i = k i) /\ (forall i, ~ In i l -> h' i = h i).
  Proof.
    induction l as [|i l IH]; intros h k Hcw Hnd HF.
    - exists h. cbn. split; [reflexivity|]. split; [intros i []|auto].
    - inversion Hnd as [|? ? Hni Hnd']; subst.
      rewrite for_each_cons, (Hcw i h (or_introl eq_refl)), (HF i (or_introl eq_refl)). cbn [bind].
      destruct (IH (upd h i (k i)) k) as (h' & E & H1 & H2); auto.
      { intros j q Hj. apply Hcw. right; auto. }
      { intros j Hj. rewrite upd_other by (intros ->; auto). apply HF. right; auto. }
      exists h'. split; [exact E|]. split.
      + intros j [<-|Hj]; [rewrite H2 by auto; apply upd_same|apply H1; auto].
      + intros j Hj. rewrite H2 by (intros K; apply Hj; right; auto).
        apply upd_other. intros ->. apply Hj. left; auto.
  Qed.
End Componentwise.

(** ** what the readers deliver *)
Lemma in_dim_3 : forall i dim, 0 <= i < dim -> dim <= 3 -> i = 0 \/ i = 1 \/ i = 2.
Proof. intros; lia. Qed.

Lemma read_array_in : forall A (o : option (list A)) dim old i x n flg, read_array o dim old = (x, n, flg) ->
  0 <= i < n -> x i = nth (Z.to_nat i) (match o with Some l => l | None => [] end) (old i).
Proof.
  intros A o dim old i x n flg H Hi. destruct o as [l|]; cbn in H; injection H as <- <- <-; [|lia].
  replace ((0 <=? i) && (i <? Z.min dim (Z.of_nat (length l)))) with true by (symmetry; apply andb_true_iff; split; [apply Z.leb_le|apply Z.ltb_lt]; lia).
  reflexivity.
Qed.
Lemma read_array_out : forall A (o : option (list A)) dim old i x n flg, read_array o dim old = (x, n, flg) ->
  n <= i -> x i = old i.
Proof.
  intros A o dim old i x n flg H Hi. destruct o as [l|]; cbn in H; injection H as <- <- <-; [|reflexivity].
  replace (i <? Z.min dim (Z.of_nat (length l))) with false by (symmetry; apply Z.ltb_ge; lia). rewrite andb_false_r. reflexivity.
Qed.
Lemma read_array_n : forall A (o : option (list A)) dim old x n flg, read_array o dim old = (x, n, flg) ->
  flg = given o /\ n = match o with Some l => Z.min dim (Z.of_nat (length l)) | None => 0 end.
Proof. intros A o dim old x n flg H. destruct o as [l|]; cbn in H; injection H as <- <- <-; auto. Qed.

Lemma read_pick : forall A (o : option (list A)) dim old i x n flg, read_array o dim old = (x, n, flg) ->
  0 <= i < dim -> (if i <? n then x i else x 0) = pick (old 0) o i.
Proof.
  intros A o dim old i x n flg H Hi. destruct (read_array_n _ _ _ _ _ _ _ H) as (_ & Hn).
  destruct o as [[|a l]|].
  - cbn in Hn. rewrite Z.min_r in Hn by lia. replace (i <? n) with false by (symmetry; apply Z.ltb_ge; lia).
    cbn [pick]. eapply read_array_out; eauto. lia.
  - assert (0 < n) by (rewrite Hn; cbn [length]; lia).
    unfold pick. destruct (i <? n) eqn:E.
    + apply Z.ltb_lt in E. rewrite (read_array_in _ _ _ _ _ _ _ _ H) by lia.
      apply nth_indep. rewrite Hn in E. lia.
    + apply Z.ltb_ge in E. rewrite (read_array_in _ _ _ _ _ _ _ _ H) by lia. cbn [Z.to_nat nth].
      symmetry. apply (nth_overflow (a :: l)). rewrite Hn in E. lia.
  - subst n. replace (i <? 0) with false by (symmetry; apply Z.ltb_ge; lia). cbn [pick]. eapply read_array_out; eauto. lia.
Qed.

Lemma read_spread : forall A (o : option (list A)) dim old i x n flg, read_array o dim old = (x, n, flg) ->
  0 <= i < dim -> dim <= 3 -> spread (flg && (n =? 1)) dim x i = per_direction (old i) o i.
Proof.
  intros A o dim old i x n flg H Hi H3. destruct (read_array_n _ _ _ _ _ _ _ H) as (Hf & Hn).
  destruct o as [[|a [|b l]]|].
  - cbn in Hn. rewrite Z.min_r in Hn by lia. subst n. rewrite andb_false_r. cbn [spread per_direction].
    replace (nth (Z.to_nat i) [] (old i)) with (old i) by (destruct (Z.to_nat i); reflexivity). eapply read_array_out; eauto; lia.
  - cbn [length] in Hn. rewrite Z.min_r in Hn by lia. subst n flg. unfold spread. cbn [per_direction].
    change (given (Some [a]) && (Z.of_nat 1 =? 1)) with true. cbn iota beta.
    replace (i <? dim) with true by (symmetry; apply Z.ltb_lt; lia). replace (i <? 3) with true by (symmetry; apply Z.ltb_lt; lia).
    assert (x 0 = a) by (rewrite (read_array_in _ _ _ _ _ _ _ _ H) by (cbn; lia); reflexivity).
    destruct (1 <=? i) eqn:E; cbn [andb]; [assumption|]. apply Z.leb_gt in E. replace i with 0 by lia. assumption.
  - assert (Hsp : spread (flg && (n =? 1)) dim x i = x i).
    { unfold spread. destruct (flg && (n =? 1)) eqn:E; [|reflexivity]. apply andb_true_iff in E. destruct E as (_ & E). apply Z.eqb_eq in E.
      assert (dim = 1). { rewrite Hn in E. cbn [length] in E. lia. }
      replace (1 <=? i) with false by (symmetry; apply Z.leb_gt; lia). reflexivity. }
    rewrite Hsp. cbn [per_direction]. destruct (Z.ltb_spec i n).
    + rewrite (read_array_in _ _ _ _ _ _ _ _ H) by lia. reflexivity.
    + rewrite (read_array_out _ _ _ _ _ _ _ _ H) by lia. symmetry. apply nth_overflow. rewrite Hn in *. lia.
  - subst n flg. cbn. eapply read_array_out; eauto. lia.
Qed.

Lemma read_wraps : forall (o : option (list bool)) dim old i x n flg, read_array o dim old = (x, n, flg) ->
  0 <= i < dim -> dim <= 3 ->
  spread (flg && (n =? 1)) dim (if flg && (n =? 0) then (fun i => if (0 <=? i) && (i <? dim) && (i <? 3) then true else x i) else x) i
  = asked_periodic (old i) o i.
Proof.
  intros o dim old i x n flg H Hi H3. destruct (read_array_n _ _ _ _ _ _ _ H) as (Hf & Hn).
  destruct o as [[|a l]|].
  - cbn in Hn. rewrite Z.min_r in Hn by lia. subst n flg. unfold spread. cbn [asked_periodic].
    change (given (Some (@nil bool)) && (Z.of_nat 0 =? 1)) with false. change (given (Some (@nil bool)) && (Z.of_nat 0 =? 0)) with true. cbn iota beta.
    replace (0 <=? i) with true by (symmetry; apply Z.leb_le; lia). replace (i <? dim) with true by (symmetry; apply Z.ltb_lt; lia).
    replace (i <? 3) with true by (symmetry; apply Z.ltb_lt; lia). reflexivity.
  - assert (n <> 0) by (rewrite Hn; cbn [length]; lia). replace (n =? 0) with false by (symmetry; apply Z.eqb_neq; auto).
    rewrite andb_false_r. exact (read_spread _ _ _ _ _ _ _ _ H Hi H3).
  - subst n flg. cbn [given andb asked_periodic]. exact (read_spread _ _ _ _ _ _ _ _ H Hi H3).
Qed.

Lemma nth_pairs : forall A (d : A) l i, (2 * i + 1 < length l)%nat ->
  nth i (pairs l) (d, d) = (nth (2 * i) l d, nth (2 * i + 1) l d) /\ (i < length (pairs l))%nat.
Proof.
  intros A d. fix IH 1. intros l i H. destruct l as [|a [|b l]]; cbn [length] in H; [lia|lia|].
  destruct i as [|i].
  - cbn. split; [reflexivity|lia].
  - destruct (IH l i) as (E & L); [lia|]. cbn [pairs length nth]. replace (2 * S i)%nat with (S (S (2 * i))) by lia. cbn [nth Nat.add].
    split; [exact E|lia].
Qed.
Lemma length_pairs : forall A (l : list A), length (pairs l) = Nat.div2 (length l).
Proof. intros A. fix IH 1. intros [|a [|b l]]; cbn; [reflexivity..|]. rewrite IH. reflexivity. Qed.

Lemma read_limits_pick : forall o dim old i x nl, read_limits o dim old = (x, nl) ->
  0 <= i < dim -> (forall l, o = Some l -> length l <> 1%nat) ->
  (if i <? Z.quot nl 2 then x i else x 0) = pick (old 0) (option_map pairs o) i.
Proof.
  intros o dim old i x nl H Hi H1. unfold read_limits in H.
  set (old' := fun k => if k mod 2 =? 0 then fst (old (k / 2)) else snd (old (k / 2))) in H.
  destruct (read_array o (2 * dim) old') as [[y n] flg] eqn:ER. injection H as <- <-.
  destruct (read_array_n _ _ _ _ _ _ _ ER) as (Hf & Hn).
  assert (Hn0 : 0 <= n) by (rewrite Hn; destruct o; lia).
  rewrite Z.quot_div_nonneg by lia.
  assert (Eold : (old' (2 * 0), old' (2 * 0 + 1)) = old 0).
  { unfold old'. change (2 * 0) with 0. change (0 mod 2) with 0. change ((0 + 1) mod 2) with 1. change (0 / 2) with 0. change ((0 + 1) / 2) with 0.
    cbn. destruct (old 0); reflexivity. }
  destruct o as [l|].
  2:{ subst n. replace (i <? 0 / 2) with false by (symmetry; apply Z.ltb_ge; cbn; lia). cbn [option_map pick].
      rewrite !(read_array_out _ _ _ _ _ _ _ _ ER) by lia. exact Eold. }
  specialize (H1 l eq_refl). cbn [option_map].
  destruct l as [|a [|b l]]; [| cbn in H1; lia|].
  { cbn in Hn. rewrite Z.min_r in Hn by lia. change (Z.of_nat 0) with 0 in Hn. subst n. replace (i <? 0 / 2) with false by (symmetry; apply Z.ltb_ge; cbn; lia). cbn [pairs pick].
    rewrite !(read_array_out _ _ _ _ _ _ _ _ ER) by lia. exact Eold. }
  assert (Hn2 : 2 <= n) by (rewrite Hn; cbn [length]; lia).
  assert (V : forall j, 0 <= j -> 2 * j + 1 < n -> (y (2*j), y (2*j+1)) = nth (Z.to_nat j) (pairs (a :: b :: l)) (a, b)).
  { intros j Hj Hjn. rewrite !(read_array_in _ _ _ _ _ _ _ _ ER) by lia.
    assert (HL : (2 * Z.to_nat j + 1 < length (a :: b :: l))%nat) by (rewrite Hn in Hjn; lia).
    destruct (nth_pairs R a (a :: b :: l) (Z.to_nat j) HL) as (E & L).
    rewrite (nth_indep _ (a, b) (a, a)) by exact L. rewrite E.
    replace (Z.to_nat (2 * j)) with (2 * Z.to_nat j)%nat by lia. replace (Z.to_nat (2 * j + 1)) with (2 * Z.to_nat j + 1)%nat by lia.
    f_equal; apply nth_indep; lia. }
  unfold pick. cbn [pairs]. change ((a, b) :: pairs l) with (pairs (a :: b :: l)).
  destruct (Z.ltb_spec i (n / 2)) as [Hlt|Hge].
  - apply V; [lia|]. assert (2 * (n / 2) <= n) by (apply Z.mul_div_le; lia). lia.
  - change (2 * 0) with 0. change (0 + 1) with 1. rewrite (nth_overflow (pairs (a :: b :: l))).
    + exact (V 0 ltac:(lia) ltac:(lia)).
    + rewrite length_pairs, Nat.div2_div. apply Nat2Z.inj_le. rewrite Nat2Z.inj_div. change (Z.of_nat 2) with 2.
      rewrite Z2Nat.id by lia. rewrite Hn in Hge.
      destruct (Z.min_spec (2 * dim) (Z.of_nat (length (a :: b :: l)))) as [(_ & E)|(_ & E)]; rewrite E in Hge; [|exact Hge].
      replace (2 * dim / 2) with dim in Hge by (rewrite Z.mul_comm, Z.div_mul; lia). lia.
Qed.

Lemma axis_defaults_0 : forall g dim degrs elems ulims, 1 <= dim -> axis_defaults g dim = (degrs, elems, ulims) ->
  degrs 0 = or_else (ax_p (og_axis g 0)) 2 /\
  elems 0 = (if 1 <? ax_m (og_axis g 0) then ax_nel (og_axis g 0) else 16) /\
  ulims 0 = (if 1 <? ax_m (og_axis g 0) then (ax_U (og_axis g 0) (ax_p (og_axis g 0)), ax_U (og_axis g 0) (ax_m (og_axis g 0) - ax_p (og_axis g 0))) else (0, 1)%R).
Proof.
  intros g dim degrs elems ulims Hd H. unfold axis_defaults in H.
  set (P := fun x : (Z -> Z) * (Z -> Z) * (Z -> R * R) => let '(degrs, elems, ulims) := x in
    degrs 0 = or_else (ax_p (og_axis g 0)) 2 /\
    elems 0 = (if 1 <? ax_m (og_axis g 0) then ax_nel (og_axis g 0) else 16) /\
    ulims 0 = (if 1 <? ax_m (og_axis g 0) then (ax_U (og_axis g 0) (ax_p (og_axis g 0)), ax_U (og_axis g 0) (ax_m (og_axis g 0) - ax_p (og_axis g 0))) else (0, 1)%R)).
  change (P (degrs, elems, ulims)). rewrite <- H. clear H.
  replace (zseq 0 dim) with (0 :: zseq 1 (dim - 1)).
  2:{ replace dim with (1 + (dim - 1)) at 2 by lia. rewrite zseq_app by lia. reflexivity. }
  cbn [fold_left]. 
  match goal with |- P (fold_left ?f ?l ?x) => assert (Hx : P x) end.
  { unfold P. change (0 <? 0) with false. cbn iota. unfold or_else.
    destruct (0 <? ax_p (og_axis g 0)) eqn:E1; destruct (1 <? ax_m (og_axis g 0)) eqn:E2; repeat split; try (rewrite upd_same); reflexivity. }
  assert (Hl : forall i, In i (zseq 1 (dim - 1)) -> i <> 0) by (intros i Hi; apply in_zseq in Hi; lia).
  revert Hx Hl. generalize (zseq 1 (dim - 1)) as l.
  match goal with |- forall l, P ?x -> _ => generalize x end.
  intros x l. revert x. induction l as [|i l IH]; intros x Hx Hl; [exact Hx|].
  cbn [fold_left]. apply IH; [|intros j Hj; apply Hl; right; auto].
  assert (Hi : i <> 0) by (apply Hl; left; auto). destruct x as [[d e] u]. unfold P in Hx. destruct Hx as (H1 & H2 & H3).
  unfold P. destruct (0 <? ax_p (og_axis g i)), (0 <? i), (1 <? ax_m (og_axis g i));
    repeat split; rewrite ?upd_other by auto; assumption.
Qed.
