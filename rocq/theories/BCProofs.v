(** Proofs about boundary condition tables and their application. *)
From Coq Require Import ZArith List Bool Reals Lia Lra Permutation.
From Coq Require Import ZifyBool ZifyNat.
From Verif Require Import Prelude Box AxisInitModel GridSpec GridProofs ElemSpec BCModel BCSpec.
Import ListNotations.
Open Scope Z_scope.

Lemma lookup_nil : forall V c, @lookup V c [] = None. Proof. reflexivity. Qed.
Lemma lookup_cons : forall V c k (v : V) l, lookup c ((k,v)::l) = if k =? c then Some v else lookup c l.
Proof. intros. unfold lookup. cbn [find fst]. destruct (k =? c); reflexivity. Qed.
Lemma lookup_set : forall V k (v : V) l c, lookup c (assoc_set k v l) = if c =? k then Some v else lookup c l.
Proof.
  intros V k v l c. induction l as [|[x w] l IH]; cbn [assoc_set].
  - rewrite lookup_cons, lookup_nil. destruct (k =? c) eqn:E, (c =? k) eqn:E'; auto; lia.
  - destruct (x =? k) eqn:E.
    + rewrite !lookup_cons. destruct (k =? c) eqn:E1, (c =? k) eqn:E2, (x =? c) eqn:E3; auto; lia.
    + rewrite !lookup_cons, IH. destruct (x =? c) eqn:E1, (c =? k) eqn:E2; auto; lia.
Qed.
Lemma lookup_add : forall k v l c, lookup c (assoc_add k v l) =
  if c =? k then Some ((match lookup k l with Some w => w | None => 0 end) + v)%R else lookup c l.
Proof.
  intros k v l c. induction l as [|[x w] l IH]; cbn [assoc_add].
  - rewrite lookup_cons, !lookup_nil. destruct (k =? c) eqn:E, (c =? k) eqn:E'; auto; lia.
  - destruct (x =? k) eqn:E.
    + rewrite !lookup_cons, E. destruct (k =? c) eqn:E1, (c =? k) eqn:E2, (x =? c) eqn:E3; auto; lia.
    + rewrite !lookup_cons, IH, E. destruct (x =? c) eqn:E1, (c =? k) eqn:E2; auto; lia.
Qed.
Definition keys {V} (l : list (Z * V)) : list Z := map fst l.
Lemma In_keys_set : forall V k (v : V) l x, In x (keys (assoc_set k v l)) <-> x = k \/ In x (keys l).
Proof.
  intros V k v l x. induction l as [|[y w] l IH]; cbn [assoc_set].
  - cbn. intuition.
  - destruct (y =? k) eqn:E; cbn [keys map fst In] in *.
    + assert (y = k) by lia. subst. intuition.
    + unfold keys in IH. rewrite IH. intuition.
Qed.
Lemma NoDup_keys_set : forall V k (v : V) l, NoDup (keys l) -> NoDup (keys (assoc_set k v l)).
Proof.
  intros V k v l. induction l as [|[y w] l IH]; cbn [assoc_set]; intros H.
  - change (NoDup [k]). constructor; [intros []|constructor].
  - cbn [keys map fst] in H. apply NoDup_cons_iff in H. destruct H as (H1 & H2). destruct (y =? k) eqn:E; cbn [keys map fst].
    + assert (y = k) by lia. subst. constructor; auto.
    + constructor; [|apply IH; exact H2]. intros Hin. apply In_keys_set in Hin. destruct Hin; [lia|auto].
Qed.
Lemma keys_add : forall k v l, keys (assoc_add k v l) = keys (assoc_set k v l).
Proof.
  intros k v l. induction l as [|[y w] l IH]; cbn [assoc_set assoc_add]; auto.
  destruct (y =? k); cbn [keys map fst]; auto. f_equal. exact IH.
Qed.
Lemma lookup_In : forall V (l : list (Z * V)) c v, NoDup (keys l) -> (lookup c l = Some v <-> In (c, v) l).
Proof.
  intros V l c v. induction l as [|[k w] l IH]; intros H.
  - split; [discriminate|intros []].
  - cbn [keys map fst] in H. apply NoDup_cons_iff in H. destruct H as (H1 & H2). rewrite lookup_cons. destruct (k =? c) eqn:E.
    + assert (k = c) by lia. subst. split.
      * intros [= ->]. left. reflexivity.
      * intros [[= ->]|Hin]; auto. exfalso. apply H1. apply (in_map fst) in Hin. exact Hin.
    + rewrite (IH H2). split; [right; auto|]. intros [[= -> ->]|Hin]; auto. lia.
Qed.
Lemma lookup_None : forall V (l : list (Z * V)) c, lookup c l = None <-> ~ In c (keys l).
Proof.
  intros V l c. induction l as [|[k w] l IH]; [split; [intros _ []|reflexivity]|].
  rewrite lookup_cons. cbn [keys map fst In]. destruct (k =? c) eqn:E.
  - split; [discriminate|]. intros H. exfalso. apply H. left. lia.
  - unfold keys in IH. rewrite IH. intuition lia.
Qed.

(** Distinct keys in 0..n-1 are at most n. *)
Lemma keys_bound : forall V (l : list (Z * V)) n, NoDup (keys l) -> (forall k, In k (keys l) -> 0 <= k < n) ->
  (length l <= Z.to_nat n)%nat.
Proof.
  intros V l n H B. rewrite <- (map_length fst). rewrite <- (length_zseq 0 n). apply NoDup_incl_length; auto.
  intros k Hk. apply in_zseq. specialize (B k Hk). lia.
Qed.

(** * Histories *)
Lemma check_arg_spec : forall x m, check_arg x m = true <-> 0 <= x < m. Proof. intros. unfold check_arg. lia. Qed.
Lemma step_ok : forall V dim dof (op : bc_op V) f, fst (bc_step dim dof op f) = Ok <-> legal dim dof op.
Proof.
  intros V dim dof op f. destruct op; unfold bc_step, legal, check_arg;
    repeat match goal with |- context [if ?b then _ else _] => destruct b eqn:? end; cbn [fst];
    split; intros; try discriminate; try reflexivity; try lia.
Qed.
Lemma step_bad : forall V dim dof (op : bc_op V) f, ~ legal dim dof op -> bc_step dim dof op f = (ErrRange, f).
Proof.
  intros V dim dof op f H. destruct op; unfold bc_step, legal, check_arg in *;
    repeat match goal with |- context [if ?b then _ else _] => destruct b eqn:? end; try reflexivity; exfalso; apply H; lia.
Qed.
Lemma step_good : forall V dim dof (op : bc_op V) f, legal dim dof op -> snd (bc_step dim dof op f) =
  match op with
  | SetValue a s c v => mk_form (Z.max (fm_dof f) (c+1)) (set2 (fm_value f) a s (assoc_set c v (fm_value f a s))) (fm_load f) (fm_visit f)
  | SetLoad a s c v => mk_form (Z.max (fm_dof f) (c+1)) (fm_value f) (set2 (fm_load f) a s (assoc_set c v (fm_load f a s))) (fm_visit f)
  | SetForm a s b => mk_form (fm_dof f) (fm_value f) (fm_load f) (set2 (fm_visit f) a s b)
  | Clear a s => mk_form (fm_dof f) (set2 (fm_value f) a s []) (set2 (fm_load f) a s []) (set2 (fm_visit f) a s false)
  end.
Proof.
  intros V dim dof op f H. destruct op; unfold bc_step, legal, check_arg in *;
    repeat match goal with |- context [if ?b then _ else _] => destruct b eqn:? end; try reflexivity; exfalso; lia.
Qed.
Lemma run_snoc : forall V (calls : list (call V)) dim dof op,
  bc_run (calls ++ [(dim, dof, op)]) = snd (bc_step dim dof op (bc_run calls)).
Proof. intros. unfold bc_run. rewrite fold_left_app. reflexivity. Qed.

Lemma set2_same : forall A (f : Z -> Z -> A) a s x, set2 f a s x a s = x.
Proof. intros. unfold set2. rewrite !Z.eqb_refl. reflexivity. Qed.
Lemma set2_other : forall A (f : Z -> Z -> A) a s x a' s', (a', s') <> (a, s) -> set2 f a s x a' s' = f a' s'.
Proof. intros A f a s x a' s' H. unfold set2. destruct ((a' =? a) && (s' =? s)) eqn:E; auto. exfalso. apply H. f_equal; lia. Qed.
Lemma pair_dec : forall a s a' s' : Z, (a', s') = (a, s) \/ (a', s') <> (a, s).
Proof. intros. destruct (Z.eq_dec a' a), (Z.eq_dec s' s); subst; auto; right; congruence. Qed.
Lemma legal_dec : forall V dim dof (op : bc_op V), legal dim dof op \/ ~ legal dim dof op.
Proof. intros V dim dof op. destruct op; unfold legal; lia. Qed.

Definition table_ok {V} (dofb : Z) (l : list (Z * V)) : Prop :=
  NoDup (keys l) /\ forall k, In k (keys l) -> 0 <= k < 64 /\ k < dofb.
Lemma run_tables : forall V (calls : list (call V)) a s,
  table_ok (fm_dof (bc_run calls)) (fm_value (bc_run calls) a s) /\
  table_ok (fm_dof (bc_run calls)) (fm_load (bc_run calls) a s).
Proof.
  intros V calls a s. induction calls as [|[[dim dof] op] calls IH] using rev_ind.
  - assert (KE : forall d, table_ok d (@nil (Z*V))) by (intros d; split; [exact (NoDup_nil Z)|intros k []]). split; apply KE.
  - rewrite run_snoc. set (f := bc_run calls) in *. destruct (legal_dec V dim dof op) as [L|L].
    2:{ rewrite (step_bad _ _ _ _ _ L). exact IH. }
    rewrite (step_good _ _ _ _ _ L). destruct IH as (IH1 & IH2).
    assert (K : forall d d' (l : list (Z * V)), table_ok d l -> d <= d' -> table_ok d' l).
    { intros d d' l (X & Y) Hd. split; auto. intros k Hk. specialize (Y k Hk). lia. }
    assert (KS : forall d (l : list (Z*V)) c v, table_ok d l -> 0 <= c < 64 -> table_ok (Z.max d (c+1)) (assoc_set c v l)).
    { intros d l c v (X & Y) Hc. split; [apply NoDup_keys_set; auto|]. intros k Hk. apply In_keys_set in Hk.
      destruct Hk as [->|Hk]; [lia|]. specialize (Y k Hk). lia. }
    assert (KE : forall d, table_ok d (@nil (Z*V))) by (intros d; split; [exact (NoDup_nil Z)|intros k []]).
    destruct op as [a' s' c v|a' s' c v|a' s' b|a' s']; cbn [fm_dof fm_value fm_load legal] in *;
      destruct (pair_dec a' s' a s) as [[= -> ->]|N]; rewrite ?set2_same, ?set2_other by exact N; split;
      try (eapply K; [eassumption|lia]); try apply KS; auto; try lia; try assumption.
Qed.

Lemma last_written_snoc : forall V W (w : bc_op V -> option (Z*Z*Z*W)) a s c v calls dim dof op,
  last_written w a s c v (calls ++ [(dim, dof, op)]) <->
  (legal dim dof op /\ w op = Some (a, s, c, v)) \/
  (last_written w a s c v calls /\ ((exists x, w op = Some (a,s,c,x)) \/ op = Clear a s -> ~ legal dim dof op)).
Proof.
  intros V W w a s c v calls dim dof op. split.
  - intros H. inversion H as [o p H1 H2 E|o p H1 H2 E]; apply app_inj_tail in E; destruct E; subst; [left|right]; auto.
  - intros [(H1 & H2)|(H1 & H2)]; [apply LW_here|apply LW_later]; auto.
Qed.
Lemma last_written_nil : forall V W (w : bc_op V -> option (Z*Z*Z*W)) a s c v, ~ last_written w a s c v [].
Proof. intros V W w a s c v H. inversion H as [o p ? ? E|o p ? ? E]; destruct o; discriminate E. Qed.
Lemma run_lookup : forall V (calls : list (call V)) a s c v,
  (lookup c (fm_value (bc_run calls) a s) = Some v <-> last_written writes_value a s c v calls) /\
  (lookup c (fm_load (bc_run calls) a s) = Some v <-> last_written writes_load a s c v calls).
Proof.
  intros V calls a s c v. induction calls as [|[[dim dof] op] calls IH] using rev_ind.
  - split; split; intros H; try discriminate; exfalso; exact (last_written_nil _ _ _ _ _ _ _ H).
  - rewrite !last_written_snoc. rewrite run_snoc. set (f := bc_run calls) in *. destruct (legal_dec V dim dof op) as [L|L].
    2:{ rewrite (step_bad _ _ _ _ _ L). cbn [snd]. destruct IH as (IH1 & IH2). rewrite IH1, IH2.
        split; split; intros H; try (right; split; [exact H|intros _; exact L]); destruct H as [(H & _)|(H & _)]; auto; contradiction. }
    rewrite (step_good _ _ _ _ _ L). destruct IH as (IH1 & IH2).
    assert (Q : forall (A B C : Prop), (A <-> B) -> ~ C -> (A <-> (legal dim dof op /\ (None : option (Z*Z*Z*V)) = Some (a,s,c,v)) \/ (B /\ (C -> ~ legal dim dof op)))).
    { intros A B C X Y. rewrite X. split; [intros H; right; split; auto; intros Z0; contradiction|]. intros [(_ & H)|(H & _)]; [discriminate|exact H]. }
    destruct op as [a' s' c' w|a' s' c' w|a' s' b|a' s']; cbn [fm_value fm_load writes_value writes_load].
    + split.
      * destruct (pair_dec a s a' s') as [[= -> ->]|N].
        -- rewrite set2_same, lookup_set. destruct (c =? c') eqn:E.
           ++ assert (c = c') by lia. subst c'. split.
              ** intros [= ->]. left. auto.
              ** intros [(_ & [= ->])|(_ & H)]; auto. exfalso. apply H; auto. left. exists w. reflexivity.
           ++ rewrite IH1. split.
              ** intros H. right. split; auto. intros [(x & [= ? ?])|X]; [lia|discriminate].
              ** intros [(_ & [= ? ?])|(H & _)]; [lia|auto].
        -- rewrite set2_other by auto. rewrite IH1. split.
           ++ intros H. right. split; auto. intros [(x & [= ? ? ? ?])|X]; [subst; congruence|discriminate].
           ++ intros [(_ & [= ? ? ? ?])|(H & _)]; [subst; congruence|auto].
      * apply Q; auto. intros [(x & X)|X]; discriminate.
    + split.
      * apply Q; auto. intros [(x & X)|X]; discriminate.
      * destruct (pair_dec a s a' s') as [[= -> ->]|N].
        -- rewrite set2_same, lookup_set. destruct (c =? c') eqn:E.
           ++ assert (c = c') by lia. subst c'. split.
              ** intros [= ->]. left. auto.
              ** intros [(_ & [= ->])|(_ & H)]; auto. exfalso. apply H; auto. left. exists w. reflexivity.
           ++ rewrite IH2. split.
              ** intros H. right. split; auto. intros [(x & [= ? ?])|X]; [lia|discriminate].
              ** intros [(_ & [= ? ?])|(H & _)]; [lia|auto].
        -- rewrite set2_other by auto. rewrite IH2. split.
           ++ intros H. right. split; auto. intros [(x & [= ? ? ? ?])|X]; [subst; congruence|discriminate].
           ++ intros [(_ & [= ? ? ? ?])|(H & _)]; [subst; congruence|auto].
    + split; (apply Q; auto; intros [(x & X)|X]; discriminate).
    + destruct (pair_dec a s a' s') as [[= -> ->]|N].
      * rewrite !set2_same, lookup_nil. split; (split; [discriminate|]; intros [(_ & X)|(_ & H)]; [discriminate|exfalso; apply H; auto]).
      * rewrite !set2_other by auto. split; (apply Q; auto; intros [(x & X)|X]; [discriminate|congruence]).
Qed.

Lemma run_visit : forall V (calls : list (call V)) a s,
  fm_visit (bc_run calls) a s = true <-> last_written writes_form a s 0 true calls.
Proof.
  intros V calls a s. induction calls as [|[[dim dof] op] calls IH] using rev_ind.
  - split; intros H; [discriminate|exfalso; exact (last_written_nil _ _ _ _ _ _ _ H)].
  - rewrite last_written_snoc. rewrite run_snoc. set (f := bc_run calls) in *. destruct (legal_dec V dim dof op) as [L|L].
    2:{ rewrite (step_bad _ _ _ _ _ L). cbn [snd]. rewrite IH. split; [intros H; right; auto|]. intros [(H & _)|(H & _)]; auto; contradiction. }
    rewrite (step_good _ _ _ _ _ L). destruct op as [a' s' c' w|a' s' c' w|a' s' b|a' s']; cbn [fm_visit writes_form].
    + rewrite IH. split; [intros H; right; split; auto; intros [(x & X)|X]; discriminate|]. intros [(_ & H)|(H & _)]; [discriminate|auto].
    + rewrite IH. split; [intros H; right; split; auto; intros [(x & X)|X]; discriminate|]. intros [(_ & H)|(H & _)]; [discriminate|auto].
    + destruct (pair_dec a s a' s') as [[= -> ->]|N].
      * rewrite set2_same. split; [intros ->; left; auto|]. intros [(_ & [= ->])|(_ & H)]; auto. exfalso. apply H; auto. left. exists b. reflexivity.
      * rewrite set2_other by auto. rewrite IH. split.
        -- intros H. right. split; auto. intros [(x & [= ? ? ?])|X]; [subst; congruence|discriminate].
        -- intros [(_ & [= ? ? ?])|(H & _)]; [subst; congruence|auto].
    + destruct (pair_dec a s a' s') as [[= -> ->]|N].
      * rewrite set2_same. split; [discriminate|]. intros [(_ & X)|(_ & H)]; [discriminate|exfalso; apply H; auto].
      * rewrite set2_other by auto. rewrite IH. split.
        -- intros H. right. split; auto. intros [(x & X)|X]; [discriminate|congruence].
        -- intros [(_ & X)|(H & _)]; [discriminate|auto].
Qed.

(** * Element fix list *)
Section ElemBCProofs.
  Variable dof : Z.
  Hypothesis Hdof : 1 <= dof.
  Variable table : option (Z -> R).
  Variable mapping : Z -> Z.
  Definition tval (a c : Z) (v : R) : R := match table with Some T => T (c + mapping a * dof) | None => v end.

  Definition bc_ok (bc : list (Z * R)) : Prop := NoDup (keys bc) /\ forall k, In k (keys bc) -> 0 <= k.

  Lemma key_split : forall a c a' c', 0 <= c < dof -> 0 <= c' < dof -> a*dof + c = a'*dof + c' -> a = a' /\ c = c'.
  Proof.
    intros a c a' c' H H' E. assert (a = a').
    { pose proof (Z.div_unique_pos (a*dof+c) dof a c ltac:(lia) ltac:(lia)) as D. pose proof (Z.div_unique_pos (a*dof+c) dof a' c' ltac:(lia) ltac:(lia)) as D'. congruence. }
    subst. lia.
  Qed.

  Lemma fixa_lookup : forall bc a l a' c, bc_ok bc -> 0 <= c < dof ->
    lookup (a'*dof + c) (add_fixa dof table mapping bc a l) =
    if a' =? a then match lookup c bc with Some v => Some (tval a c v) | None => lookup (a'*dof+c) l end
    else lookup (a'*dof + c) l.
  Proof.
    intros bc a l a' c (ND & NN) Hc. unfold add_fixa. revert l. induction bc as [|[k v] bc IH]; intros l.
    - cbn [fold_left]. rewrite lookup_nil. destruct (a' =? a); reflexivity.
    - cbn [fold_left fst snd]. cbn [keys map fst] in ND, NN. apply NoDup_cons_iff in ND. destruct ND as (N1 & N2).
      pose proof (NN k (or_introl eq_refl)) as Hk.
      rewrite IH by (auto; intros; apply NN; right; auto). rewrite lookup_cons. destruct (dof <=? k) eqn:E.
      + replace (k =? c) with false by lia. reflexivity.
      + rewrite lookup_set. destruct (a' =? a) eqn:Ea.
        * assert (a' = a) by lia. subst a'. destruct (k =? c) eqn:Ek.
          -- assert (k = c) by lia. subst. rewrite (proj2 (lookup_None _ bc c)) by exact N1. rewrite Z.eqb_refl. reflexivity.
          -- replace (a * dof + c =? a * dof + k) with false by lia. reflexivity.
        * destruct (a' * dof + c =? a * dof + k) eqn:Ek; auto.
          destruct (key_split a' c a k) as (X & Y); lia.
  Qed.
  Lemma flux_lookup : forall bc a w l a' c, bc_ok bc -> 0 <= c < dof ->
    lookup (a'*dof + c) (add_flux dof bc a w l) =
    if a' =? a then match lookup c bc with
      | Some v => Some ((match lookup (a'*dof+c) l with Some x => x | None => 0 end) + v * w)%R
      | None => lookup (a'*dof+c) l end
    else lookup (a'*dof + c) l.
  Proof.
    intros bc a w l a' c (ND & NN) Hc. unfold add_flux. revert l. induction bc as [|[k v] bc IH]; intros l.
    - cbn [fold_left]. rewrite lookup_nil. destruct (a' =? a); reflexivity.
    - cbn [fold_left fst snd]. cbn [keys map fst] in ND, NN. apply NoDup_cons_iff in ND. destruct ND as (N1 & N2).
      pose proof (NN k (or_introl eq_refl)) as Hk.
      rewrite IH by (auto; intros; apply NN; right; auto). rewrite lookup_cons. destruct (dof <=? k) eqn:E.
      + replace (k =? c) with false by lia. reflexivity.
      + rewrite lookup_add. destruct (a' =? a) eqn:Ea.
        * assert (a' = a) by lia. subst a'. destruct (k =? c) eqn:Ek.
          -- assert (k = c) by lia. subst. rewrite (proj2 (lookup_None _ bc c)) by exact N1. rewrite Z.eqb_refl. reflexivity.
          -- replace (a * dof + c =? a * dof + k) with false by lia. reflexivity.
        * destruct (a' * dof + c =? a * dof + k) eqn:Ek; auto.
          destruct (key_split a' c a k) as (X & Y); lia.
  Qed.
  (** Keys stay distinct and of the form a*dof+c. *)
  Definition good_keys (n : Z) (l : list (Z * R)) : Prop := NoDup (keys l) /\ forall k, In k (keys l) -> 0 <= k < n * dof.
  Lemma fixa_good : forall bc a n l, bc_ok bc -> 0 <= a < n -> good_keys n l -> good_keys n (add_fixa dof table mapping bc a l).
  Proof.
    intros bc a n l (_ & NN) Ha. unfold add_fixa. revert l. induction bc as [|[k v] bc IH]; intros l G; cbn [fold_left fst snd]; auto.
    pose proof (NN k (or_introl eq_refl)) as Hk.
    apply IH; [intros; apply NN; right; auto|]. destruct (dof <=? k) eqn:E; auto. destruct G as (G1 & G2).
    split; [apply NoDup_keys_set; auto|]. intros x Hx. apply In_keys_set in Hx. destruct Hx as [->|Hx]; auto. nia.
  Qed.
  Lemma flux_good : forall bc a w n l, bc_ok bc -> 0 <= a < n -> good_keys n l -> good_keys n (add_flux dof bc a w l).
  Proof.
    intros bc a w n l (_ & NN) Ha. unfold add_flux. revert l. induction bc as [|[k v] bc IH]; intros l G; cbn [fold_left fst snd]; auto.
    pose proof (NN k (or_introl eq_refl)) as Hk.
    apply IH; [intros; apply NN; right; auto|]. destruct (dof <=? k) eqn:E; auto. destruct G as (G1 & G2).
    split; [rewrite keys_add; apply NoDup_keys_set; auto|]. intros x Hx. rewrite keys_add in Hx. apply In_keys_set in Hx.
    destruct Hx as [->|Hx]; auto. nia.
  Qed.

  Variable nen : Z -> Z.
  Hypothesis Hnen : forall d, 0 <= d < 3 -> 1 <= nen d.
  Variable value load : Z -> Z -> list (Z * R).
  Hypothesis Hvalue : forall d s, bc_ok (value d s).
  Hypothesis Hload : forall d s, bc_ok (load d s).
  Variable area : Z -> Z -> R.

  Definition on_side (t : triple) (d s : Z) : bool := if s =? 0 then coord t d =? 0 else coord t d =? nen d - 1.

  Lemma In_face : forall d s t, 0 <= d < 3 -> (In t (face_nodes nen d s) <-> in_box zero3 nen t /\ on_side t d s = true).
  Proof.
    intros d s [[i j] k] Hd. unfold face_nodes. rewrite In_box. unfold in_box, zero3, on_side.
    pose proof (Hnen 0 ltac:(lia)). pose proof (Hnen 1 ltac:(lia)). pose proof (Hnen 2 ltac:(lia)).
    assert (E : d = 0 \/ d = 1 \/ d = 2) by lia.
    destruct E as [-> | [-> | ->]]; cbn [coord];
      repeat match goal with |- context [Z.eqb (Zpos ?a) (Zpos ?b)] => let r := eval vm_compute in (Z.eqb (Zpos a) (Zpos b)) in change (Z.eqb (Zpos a) (Zpos b)) with r
       | |- context [Z.eqb 0 (Zpos ?b)] => change (Z.eqb 0 (Zpos b)) with false
       | |- context [Z.eqb (Zpos ?b) 0] => change (Z.eqb (Zpos b) 0) with false
       | |- context [Z.eqb 0 0] => change (Z.eqb 0 0) with true end;
      cbn [andb negb]; destruct (s =? 0); cbn [andb negb]; lia.
  Qed.
  Lemma lin_in : forall t, in_box zero3 nen t -> 0 <= lin nen t < vol nen.
  Proof. intros [[i j] k] (A & B & C). unfold zero3 in *. apply lin_range; lia. Qed.

  (** Folding over nodes with distinct positions. *)
  Lemma nodes_fold : forall (step : Z -> list (Z*R) -> list (Z*R)) (res : option R -> option R) c t,
    in_box zero3 nen t ->
    (forall a l, lookup (lin nen t * dof + c) (step a l) = if lin nen t =? a then res (lookup (lin nen t*dof+c) l) else lookup (lin nen t*dof+c) l) ->
    forall nodes l, NoDup nodes -> (forall u, In u nodes -> in_box zero3 nen u) ->
    lookup (lin nen t*dof+c) (fold_left (fun l u => step (lin nen u) l) nodes l) =
    if existsb (triple_eqb t) nodes then res (lookup (lin nen t*dof+c) l) else lookup (lin nen t*dof+c) l.
  Proof.
    intros step res c t Ht Hs nodes. induction nodes as [|u nodes IH]; intros l ND HB; cbn [fold_left existsb]; auto.
    apply NoDup_cons_iff in ND. destruct ND as (N1 & N2). rewrite IH by (auto; intros; apply HB; right; auto). rewrite Hs.
    assert (TE : forall a b, triple_eqb a b = true <-> a = b).
    { intros [[? ?] ?] [[? ?] ?]. unfold triple_eqb. split; [intros; repeat f_equal; lia|intros [= -> -> ->]; lia]. }
    destruct (triple_eqb t u) eqn:E.
    - apply TE in E. subst u. rewrite Z.eqb_refl. cbn [orb].
      replace (existsb (triple_eqb t) nodes) with false; auto. symmetry. apply not_true_iff_false. intros X.
      apply existsb_exists in X. destruct X as (y & Y1 & Y2). apply TE in Y2. subst. contradiction.
    - cbn [orb]. replace (lin nen t =? lin nen u) with false; auto. symmetry. apply Z.eqb_neq. intros X.
      apply lin_inj in X; auto; [|apply HB; left; auto]. subst. rewrite (proj2 (TE u u) eq_refl) in E. discriminate.
  Qed.

  Lemma face_existsb : forall d s t, 0 <= d < 3 -> in_box zero3 nen t ->
    existsb (triple_eqb t) (face_nodes nen d s) = on_side t d s.
  Proof.
    intros d s t Hd Ht. apply eq_true_iff_eq. rewrite existsb_exists.
    assert (TE : forall a b, triple_eqb a b = true <-> a = b).
    { intros [[? ?] ?] [[? ?] ?]. unfold triple_eqb. split; [intros; repeat f_equal; lia|intros [= -> -> ->]; lia]. }
    split.
    - intros (u & Hu & E). apply TE in E. subst u. apply In_face in Hu; tauto.
    - intros H. exists t. split; [apply In_face; auto|apply TE; auto].
  Qed.

  Lemma fold_pair : forall A B C (f : A -> B -> B) (g : A -> C -> C) l (st : B * C),
    fold_left (fun st t => (f t (fst st), g t (snd st))) l st =
    (fold_left (fun x t => f t x) l (fst st), fold_left (fun x t => g t x) l (snd st)).
  Proof. intros A B C f g l. induction l as [|a l IH]; intros [b c]; cbn [fold_left fst snd]; auto. rewrite IH. reflexivity. Qed.

  Lemma build_face_fold : forall d s st, build_face dof table mapping nen value load area d s st =
    (fold_left (fun l t => add_fixa dof table mapping (value d s) (lin nen t) l) (face_nodes nen d s) (fst st),
     fold_left (fun l t => add_flux dof (load d s) (lin nen t) (area d s) l) (face_nodes nen d s) (snd st)).
  Proof.
    assert (E : forall nodes l, fold_left (fun l t => add_fixa dof table mapping [] (lin nen t) l) nodes l = l)
      by (intros nodes; induction nodes; intros; cbn [fold_left]; auto).
    assert (E' : forall nodes w l, fold_left (fun l t => add_flux dof [] (lin nen t) w l) nodes l = l)
      by (intros nodes; induction nodes; intros; cbn [fold_left]; auto).
    intros d s st. unfold build_face. destruct (value d s) as [|e v] eqn:EV, (load d s) as [|e' w] eqn:EL.
    - rewrite E, E'. destruct st; reflexivity.
    - etransitivity; [apply (fold_pair _ _ _ (fun t l => add_fixa dof table mapping [] (lin nen t) l) (fun t l => add_flux dof (e' :: w) (lin nen t) (area d s) l))|reflexivity].
    - etransitivity; [apply (fold_pair _ _ _ (fun t l => add_fixa dof table mapping (e :: v) (lin nen t) l) (fun t l => add_flux dof [] (lin nen t) 1 l))|].
      rewrite !E'. reflexivity.
    - etransitivity; [apply (fold_pair _ _ _ (fun t l => add_fixa dof table mapping (e :: v) (lin nen t) l) (fun t l => add_flux dof (e' :: w) (lin nen t) (area d s) l))|reflexivity].
  Qed.

  Lemma face_lookup : forall d s st t c, 0 <= d < 3 -> in_box zero3 nen t -> 0 <= c < dof ->
    lookup (lin nen t*dof+c) (fst (build_face dof table mapping nen value load area d s st)) =
      (if on_side t d s then match lookup c (value d s) with Some v => Some (tval (lin nen t) c v) | None => lookup (lin nen t*dof+c) (fst st) end
       else lookup (lin nen t*dof+c) (fst st)) /\
    lookup (lin nen t*dof+c) (snd (build_face dof table mapping nen value load area d s st)) =
      (if on_side t d s then match lookup c (load d s) with
         | Some v => Some ((match lookup (lin nen t*dof+c) (snd st) with Some x => x | None => 0 end) + v * area d s)%R
         | None => lookup (lin nen t*dof+c) (snd st) end
       else lookup (lin nen t*dof+c) (snd st)).
  Proof.
    intros d s st t c Hd Ht Hc. rewrite build_face_fold. cbn [fst snd].
    assert (HB : forall u, In u (face_nodes nen d s) -> in_box zero3 nen u) by (intros u Hu; apply In_face in Hu; tauto).
    assert (HN : NoDup (face_nodes nen d s)) by apply NoDup_box. split.
    - rewrite (nodes_fold (fun a l => add_fixa dof table mapping (value d s) a l)
        (fun cur => match lookup c (value d s) with Some v => Some (tval (lin nen t) c v) | None => cur end) c t Ht); auto.
      + rewrite face_existsb by auto. reflexivity.
      + intros a l. rewrite fixa_lookup by auto. destruct (lin nen t =? a) eqn:E; auto. apply Z.eqb_eq in E. rewrite <- E. reflexivity.
    - rewrite (nodes_fold (fun a l => add_flux dof (load d s) a (area d s) l)
        (fun cur => match lookup c (load d s) with Some v => Some ((match cur with Some x => x | None => 0 end) + v * area d s)%R | None => cur end) c t Ht); auto.
      + rewrite face_existsb by auto. reflexivity.
      + intros a l. rewrite flux_lookup by auto. reflexivity.
  Qed.
  Lemma face_good : forall d s st, 0 <= d < 3 -> good_keys (vol nen) (fst st) -> good_keys (vol nen) (snd st) ->
    good_keys (vol nen) (fst (build_face dof table mapping nen value load area d s st)) /\
    good_keys (vol nen) (snd (build_face dof table mapping nen value load area d s st)).
  Proof.
    intros d s st Hd G1 G2. rewrite build_face_fold. cbn [fst snd].
    assert (HB : forall u, In u (face_nodes nen d s) -> 0 <= lin nen u < vol nen)
      by (intros u Hu; apply lin_in; apply In_face in Hu; tauto).
    clear -HB G1 G2 Hvalue Hload Hdof. destruct st as [l1 l2]. cbn [fst snd] in *. revert l1 l2 G1 G2. induction (face_nodes nen d s) as [|u nodes IH]; intros l1 l2 G1 G2; cbn [fold_left]; auto.
    apply IH; [intros; apply HB; right; auto| |].
    - apply fixa_good; auto. apply HB. left; auto.
    - apply flux_good; auto. apply HB. left; auto.
  Qed.

  Variable dim : Z.
  Hypothesis Hdim : 0 <= dim <= 3.
  Variable periodic : Z -> bool.
  Variables sizes ID : Z -> Z.

  Definition face_step (f : Z * Z) (st : list (Z*R) * list (Z*R)) :=
    if negb (periodic (fst f)) && (if snd f =? 0 then ID (fst f) =? 0 else ID (fst f) =? sizes (fst f) - 1)
    then build_face dof table mapping nen value load area (fst f) (snd f) st else st.
  Lemma build_fix_faces : build_fix dof table mapping nen value load area dim periodic sizes ID =
    fold_left (fun st f => face_step f st) (faces dim) ([], []).
  Proof.
    unfold build_fix, faces. generalize (@nil (Z*R), @nil (Z*R)). generalize (zseq 0 dim). intros l.
    induction l as [|d l IH]; intros st; cbn [fold_left flat_map app]; auto. rewrite IH. f_equal.
    unfold face_step. cbn [fst snd]. change (0 =? 0) with true. change (1 =? 0) with false. cbv iota.
    rewrite !(andb_comm (negb _)). reflexivity.
  Qed.

  Lemma In_faces : forall f, In f (faces dim) -> 0 <= fst f < 3 /\ (snd f = 0 \/ snd f = 1).
  Proof.
    intros f H. apply in_flat_map in H. destruct H as (d & Hd & H). apply in_zseq in Hd. cbn [In] in H.
    destruct H as [<-|[<-|[]]]; cbn [fst snd]; lia.
  Qed.

  Lemma build_fix_lookup : forall t c, in_box zero3 nen t -> 0 <= c < dof ->
    lookup (lin nen t*dof+c) (fst (build_fix dof table mapping nen value load area dim periodic sizes ID)) =
      prescribed dim dof periodic sizes ID nen value table mapping t c /\
    lookup (lin nen t*dof+c) (snd (build_fix dof table mapping nen value load area dim periodic sizes ID)) =
      loaded dim periodic sizes ID nen load area t c.
  Proof.
    intros t c Ht Hc. rewrite build_fix_faces. unfold prescribed, loaded.
    set (k := lin nen t * dof + c).
    assert (K : forall l st, (forall f, In f l -> 0 <= fst f < 3 /\ (snd f = 0 \/ snd f = 1)) ->
      lookup k (fst (fold_left (fun st f => face_step f st) l st)) =
        fold_left (fun cur f => if on_face periodic sizes ID nen t f then
          match lookup c (value (fst f) (snd f)) with Some v => Some (tval (lin nen t) c v) | None => cur end else cur) l (lookup k (fst st)) /\
      lookup k (snd (fold_left (fun st f => face_step f st) l st)) =
        fold_left (fun cur f => if on_face periodic sizes ID nen t f then
          match lookup c (load (fst f) (snd f)) with Some v => Some ((match cur with Some w => w | None => 0 end) + v * area (fst f) (snd f))%R | None => cur end else cur)
          l (lookup k (snd st))).
    { induction l as [|f l IH]; intros st Hl; cbn [fold_left]; auto.
      destruct (IH (face_step f st) ltac:(intros; apply Hl; right; auto)) as (I1 & I2). rewrite I1, I2. clear I1 I2 IH.
      destruct (Hl f (or_introl eq_refl)) as (Hd & Hs). destruct f as [d s]. cbn [fst snd] in *.
      destruct (face_lookup d s st t c Hd Ht Hc) as (F1 & F2). fold k in F1, F2.
      unfold face_step. cbn [fst snd]. unfold on_face. unfold on_side in F1, F2.
      destruct (periodic d); cbn [negb andb]; auto.
      destruct (s =? 0).
      - destruct (ID d =? 0); cbn [andb]; auto. rewrite F1, F2. split; reflexivity.
      - destruct (ID d =? sizes d - 1); cbn [andb]; auto. rewrite F1, F2. split; reflexivity. }
    apply (K (faces dim) ([],[])). apply In_faces.
  Qed.
  Lemma build_fix_good :
    good_keys (vol nen) (fst (build_fix dof table mapping nen value load area dim periodic sizes ID)) /\
    good_keys (vol nen) (snd (build_fix dof table mapping nen value load area dim periodic sizes ID)).
  Proof.
    rewrite build_fix_faces.
    assert (K : forall l st, (forall f, In f l -> 0 <= fst f < 3 /\ (snd f = 0 \/ snd f = 1)) ->
      good_keys (vol nen) (fst st) -> good_keys (vol nen) (snd st) ->
      good_keys (vol nen) (fst (fold_left (fun st f => face_step f st) l st)) /\ good_keys (vol nen) (snd (fold_left (fun st f => face_step f st) l st))).
    { induction l as [|f l IH]; intros st Hl G1 G2; cbn [fold_left]; auto.
      destruct (Hl f (or_introl eq_refl)) as (Hd & _).
      assert (G : good_keys (vol nen) (fst (face_step f st)) /\ good_keys (vol nen) (snd (face_step f st))).
      { unfold face_step. match goal with |- context [if ?b then _ else _] => destruct b end; [apply face_good; auto|split; auto]. }
      apply IH; [intros; apply Hl; right; auto|tauto|tauto]. }
    apply K; [apply In_faces| |]; (split; [exact (NoDup_nil Z)|intros k []]).
  Qed.
End ElemBCProofs.
