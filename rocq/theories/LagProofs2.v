(** The multiplicity check of the nodal bases. *)
From Coq Require Import ZArith List Bool Lia Reals Lra Psatz Sorted.
From Coq Require Import ZifyBool ZifyNat.
From Verif Require Import Prelude RealOrd AxisModel AxisSpec AxisProofs AxisProofs2 RuleModel.
Import ListNotations.
Open Scope Z_scope.

Lemma sorted_unique : forall l l', StronglySorted Z.lt l -> StronglySorted Z.lt l' ->
  (forall x, In x l <-> In x l') -> l = l'.
Proof.
  induction l as [|a l IH]; intros [|b l'] S1 S2 H; auto.
  - exfalso. apply (H b). left; auto.
  - exfalso. apply (H a). left; auto.
  - inversion S1 as [|? ? S1a F1]; inversion S2 as [|? ? S2a F2]; subst. rewrite Forall_forall in F1, F2.
    assert (a = b).
    { pose proof (proj1 (H a) (or_introl eq_refl)) as [->|Ha]; auto.
      pose proof (proj2 (H b) (or_introl eq_refl)) as [E|Hb]; auto. specialize (F1 _ Hb). specialize (F2 _ Ha). lia. }
    subst b. f_equal. apply IH; auto. intros x. split; intros Hx.
    + destruct (proj1 (H x) (or_intror Hx)) as [->|]; auto. specialize (F1 _ Hx). lia.
    + destruct (proj2 (H x) (or_intror Hx)) as [->|]; auto. specialize (F2 _ Hx). lia.
Qed.

Section Mult.
  Variables (p m : Z) (U : Z -> R).
  Hypothesis HM : nondecreasing (O:=Rord) m U.
  Hypothesis Hp : 1 <= p.

  Lemma UM a b : 0 <= a -> a <= b -> b <= m -> (U a <= U b)%R.
  Proof. intros. apply kle_R. apply HM; auto. Qed.

  Lemma block_count k : 1 <= k < m -> (forall i, 1 <= i < k -> (U i < U k)%R) ->
    let j := next_knot_up (O:=Rord) m U k in
    k < j <= m /\ (forall i, k <= i < j -> U i = U k) /\ (j < m -> forall i, 1 <= i < j -> (U i < U j)%R) /\
    count_eq (O:=Rord) U 1 (m-1) (U k) = j - k.
  Proof.
    intros Hk Hb j. destruct (next_knot_up_spec (O:=Rord) m U k ltac:(lia)) as (H1 & H2 & H3). fold j in H1, H2, H3.
    assert (E : forall i, k <= i < j -> U i = U k).
    { intros i Hi. destruct (Z.eq_dec i k) as [->|]; auto. pose proof (UM k i ltac:(lia) ltac:(lia) ltac:(lia)).
      pose proof (proj1 (kle_R _ _) (H2 i ltac:(lia))). lra. }
    assert (L : j < m -> (U k < U j)%R) by (intros Hj; apply klt_R; auto).
    split; auto. split; auto. split.
    - intros Hj i Hi. specialize (L Hj). destruct (Z_lt_dec i k); [pose proof (Hb i ltac:(lia)); lra|]. rewrite (E i) by lia. auto.
    - apply count_eq_interval; try lia. intros i Hi. split.
      + intros Ei. destruct (Z_lt_dec i k); [pose proof (Hb i ltac:(lia)); lra|]. destruct (Z_le_dec j i); [|lia].
        exfalso. assert (j < m) by lia. specialize (L H). pose proof (UM j i ltac:(lia) ltac:(lia) ltac:(lia)). lra.
      + intros Hi'. apply E. lia.
  Qed.

  Lemma mult_ok_spec fuel : forall k, 1 <= k <= m -> m - k < Z.of_nat fuel -> (k < m -> forall i, 1 <= i < k -> (U i < U k)%R) ->
    (mult_ok p m U fuel k = true <-> forall i, k <= i <= m-1 -> p <= count_eq (O:=Rord) U 1 (m-1) (U i)).
  Proof.
    induction fuel as [|f IH]; intros k Hk Hf Hb; [lia|]. cbn [mult_ok]. destruct (m <=? k) eqn:E.
    - split; auto. intros _ i Hi. lia.
    - assert (K : 1 <= k < m) by lia. destruct (block_count k K (Hb ltac:(lia))) as (J1 & J2 & J3 & J4). cbv zeta in *.
      set (j := next_knot_up (O:=Rord) m U k) in *. destruct (j - k <? p) eqn:E2.
      + split; [discriminate|]. intros H. specialize (H k ltac:(lia)). lia.
      + rewrite IH by (auto; lia). split.
        * intros H i Hi. destruct (Z_lt_dec i j); [rewrite J2 by lia; lia|]. apply H. lia.
        * intros H i Hi. apply H. lia.
  Qed.

  Hypothesis HB : forall v, count_eq (O:=Rord) U 1 (m-1) v <= p.
  Lemma mult_ok_blocks fuel : forall k, 1 <= k <= m -> (k < m -> forall i, 1 <= i < k -> (U i < U k)%R) ->
    mult_ok p m U fuel k = true -> exists n, 0 <= n /\ m = k + p * n /\
      (forall c i, 0 <= c < n -> k + p * c <= i < k + p * (c+1) -> U i = U (k + p * c)) /\
      (forall c, 0 <= c < n - 1 -> (U (k + p * c) < U (k + p * (c+1)))%R).
  Proof.
    induction fuel as [|f IH]; intros k Hk Hb H; [discriminate|]. cbn [mult_ok] in H. destruct (m <=? k) eqn:E.
    - exists 0. split; [lia|]. split; [lia|]. split; intros; lia.
    - assert (K : 1 <= k < m) by lia. destruct (block_count k K (Hb ltac:(lia))) as (J1 & J2 & J3 & J4). cbv zeta in *.
      set (j := next_knot_up (O:=Rord) m U k) in *. destruct (j - k <? p) eqn:E2; [discriminate|].
      pose proof (HB (U k)). assert (EJ : j = k + p) by lia.
      destruct (IH j ltac:(lia) J3 H) as (n & N0 & N1 & N2 & N3). exists (n+1). split; [lia|]. split; [lia|]. split.
      + intros c i Hc Hi. destruct (Z.eq_dec c 0) as [->|]; [rewrite Z.mul_0_r, Z.add_0_r; apply J2; lia|].
        replace (k + p * c) with (j + p * (c-1)) by lia. apply N2; lia.
      + intros c Hc. destruct (Z.eq_dec c 0) as [->|].
        * replace (k + p * 0) with k by lia. replace (k + p * (0+1)) with j by lia. apply J3; nia.
        * replace (k + p * c) with (j + p * (c-1)) by lia. replace (k + p * (c+1)) with (j + p * (c-1+1)) by lia. apply N3. lia.
  Qed.

  (** With blocks of p equal knots the elements are the spans p, 2p, 3p, ... *)
  Lemma mult_ok_elements fuel l : 2*p+1 <= m -> mult_ok p m U fuel 1 = true -> is_element_list (O:=Rord) p m U l ->
    l = map (fun c => p * (c+1)) (zseq 0 (Z.of_nat (length l))).
  Proof.
    intros Hm H [HE HS]. destruct (mult_ok_blocks fuel 1 ltac:(lia) ltac:(intros; lia) H) as (n & N0 & N1 & N2 & N3).
    assert (HI : forall k, is_element (O:=Rord) p m U k <-> exists c, 1 <= c <= n - 1 /\ k = p * c).
    { intros k. unfold is_element. rewrite klt_R. split.
      - intros [Hk HU]. set (c := (k - 1) / p). pose proof (Z.div_mod (k-1) p ltac:(lia)) as D. pose proof (Z.mod_pos_bound (k-1) p ltac:(lia)) as B. fold c in D.
        set (r := (k-1) mod p) in *. clearbody c r.
        assert (0 <= c) by nia. assert (c <= n - 1) by nia.
        destruct (Z.eq_dec r (p-1)) as [Er|Nr].
        + exists (c+1). split; [nia|lia].
        + exfalso. assert (E1 : U k = U (1 + p * c)) by (apply N2; nia). assert (E2 : U (k+1) = U (1 + p * c)) by (apply N2; nia). rewrite E1, E2 in HU. lra.
      - intros (c & Hc & ->). split; [nia|].
        assert (E1 : U (p * c) = U (1 + p * (c-1))) by (apply N2; nia). rewrite E1. replace (p * c + 1) with (1 + p * (c-1+1)) by lia. apply N3. lia. }
    assert (S2 : StronglySorted Z.lt (map (fun c => p * (c+1)) (zseq 0 (n-1)))).
    { assert (G : forall k s, StronglySorted Z.lt (map (fun c => p * (c+1)) (zseq s (Z.of_nat k)))).
      { induction k as [|k IHk]; intros s; [rewrite zseq_nil by lia; constructor|]. rewrite zseq_cons by lia. cbn [map].
        replace (Z.of_nat (S k) - 1) with (Z.of_nat k) by lia. constructor; auto. apply Forall_forall. intros x Hx.
        apply in_map_iff in Hx. destruct Hx as (y & <- & Hy). apply in_zseq in Hy. nia. }
      replace (n-1) with (Z.of_nat (Z.to_nat (n-1))) by nia. apply G. }
    assert (EQ : l = map (fun c => p * (c+1)) (zseq 0 (n-1))).
    { apply (sorted_unique l); auto. intros x. rewrite HE, HI, in_map_iff. split.
      - intros (c & Hc & ->). exists (c-1). split; [lia|]. apply in_zseq. lia.
      - intros (c & <- & Hc). apply in_zseq in Hc. exists (c+1). split; lia. }
    assert (LL : Z.of_nat (length l) = n - 1) by (rewrite EQ, map_length, length_zseq; nia). rewrite LL. exact EQ.
  Qed.
End Mult.
