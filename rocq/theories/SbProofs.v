(** Lemmas on block formats. *)
From Coq Require Import ZArith List Bool Lia Reals.
From Coq Require Import ZifyBool ZifyNat.
From Verif Require Import Prelude AxisModel AxisInitModel AxisInitProofs SetupModel Box GridModel GridSpec GridProofs ElemModel AsmProofs MatModel MatProofs2 SbModel.
Import ListNotations.
Open Scope Z_scope.

Lemma map_zseq_nth : forall (l : list Z), map (array_of l) (zseq 0 (Z.of_nat (length l))) = l.
Proof.
  intros l. apply (nth_ext _ _ 0 0).
  - rewrite map_length, length_zseq. lia.
  - intros n Hn. rewrite map_length, length_zseq in Hn.
    rewrite (nth_indep _ 0 (array_of l 0)) by (rewrite map_length, length_zseq; lia).
    rewrite map_nth. unfold zseq. rewrite (nth_indep _ 0 (0 + Z.of_nat 0)) by (rewrite map_length, seq_length; lia).
    rewrite (map_nth (fun i => 0 + Z.of_nat i)). rewrite seq_nth by lia. unfold array_of. f_equal. lia.
Qed.

Lemma zseq_S : forall s n, 0 <= n -> zseq s (n + 1) = zseq s n ++ [s + n].
Proof.
  intros s n Hn. unfold zseq. replace (Z.to_nat (n + 1)) with (S (Z.to_nat n)) by lia.
  rewrite seq_S, map_app. cbn. do 2 f_equal. lia.
Qed.

(** The loop: after [k] steps the first [n] entries are the kept ones, and the entries from [k] on are
    untouched. *)
Lemma filter_lower_inv : forall row col k, 0 <= k ->
  let (c, n) := filter_lower row k col in
  0 <= n <= k /\ (forall i, k <= i -> c i = col i) /\ entries c n = filter (fun x => row <=? x) (entries col k).
Proof.
  intros row col k Hk. pattern k. apply natlike_ind; [|clear k Hk|exact Hk].
  - unfold filter_lower. change (zseq 0 0) with (@nil Z). cbn. repeat split; auto; lia.
  - intros k Hk IH. unfold filter_lower in *. unfold Z.succ. rewrite zseq_S by exact Hk. rewrite fold_left_app.
    destruct (fold_left _ (zseq 0 k) (col, 0)) as [c n]. destruct IH as (Hn & Hrest & He). cbn [fold_left].
    unfold entries in *. rewrite (zseq_S 0 k Hk), map_app, filter_app. cbn [map filter]. rewrite <- He, Z.add_0_l.
    rewrite (Hrest k) by lia. destruct (row <=? col k).
    + split; [lia|]. split.
      * intros i Hi. rewrite upd_other by lia. apply Hrest. lia.
      * rewrite zseq_S by lia. rewrite map_app. cbn [map]. rewrite Z.add_0_l, upd_same. f_equal.
        apply map_ext_in. intros i Hi. apply in_zseq in Hi. apply upd_other. lia.
    + split; [lia|]. split; [intros i Hi; apply Hrest; lia|]. rewrite app_nil_r. reflexivity.
Qed.

Lemma filter_lower_list : forall row l,
  (let (c, n) := filter_lower row (Z.of_nat (length l)) (array_of l) in entries c n) = filter (fun x => row <=? x) l.
Proof.
  intros row l. pose proof (filter_lower_inv row (array_of l) (Z.of_nat (length l)) ltac:(lia)) as H.
  destruct (filter_lower _ _ _) as [c n]. destruct H as (_ & _ & ->). unfold entries. rewrite map_zseq_nth. reflexivity.
Qed.

Section Loc.
  Context {O : KnotOrd}.
  Variables (dim size : Z) (axes : Z -> axis O) (G : Z -> grid).

  Lemma in_block_cols : forall sym r t c, In c (block_cols dim axes size G sym r t) <->
    In c (mat_cols dim axes size G r t) /\ (sym = true -> mat_row dim axes size G r t <= c).
  Proof.
    intros sym r t c. unfold block_cols. cbv zeta. destruct sym.
    - rewrite filter_lower_list, filter_In. split; intros [H1 H2]; split; auto; [intros _; lia|specialize (H2 eq_refl); lia].
    - split; [intros H; split; [exact H|discriminate]|tauto].
  Qed.

  Lemma in_block_pattern : forall sym r i j, In (i, j) (block_pattern dim axes size G sym r) <->
    exists t, In t (box (gr_lstart (G r)) (gr_lwidth (G r))) /\ i = mat_row dim axes size G r t /\ 0 <= i /\ 0 <= j /\
      In j (mat_cols dim axes size G r t) /\ (sym = true -> i <= j).
  Proof.
    intros sym r i j. unfold block_pattern. rewrite filter_In, in_flat_map. cbn [fst snd]. split.
    - intros [(t & Ht & Hin) Hn]. apply in_map_iff in Hin. destruct Hin as (c & E & Hc). injection E as <- <-.
      apply in_block_cols in Hc. destruct Hc as [Hc Hs]. exists t. repeat split; auto; lia.
    - intros (t & Ht & E & Hi & Hj & Hc & Hs). split; [|lia]. exists t. split; [exact Ht|]. apply in_map_iff. exists j.
      split; [rewrite E; reflexivity|]. apply in_block_cols. split; [exact Hc|]. rewrite <- E. exact Hs.
  Qed.

  Lemma in_mat_pattern : forall bs r i j, 1 <= bs -> 0 <= i -> 0 <= j ->
    (In (i, j) (mat_pattern dim axes size G bs r) <-> In (i / bs, j / bs) (block_pattern dim axes size G false r)).
  Proof.
    intros bs r i j Hbs Hi Hj. rewrite in_block_pattern. unfold mat_pattern. rewrite filter_In, in_flat_map. cbn [fst snd].
    assert (D : forall x n c, 0 <= c < bs -> x = bs * n + c -> n = x / bs)
      by (intros x n c Hc E; apply (Z.div_unique x bs n c); [left; exact Hc|exact E]).
    split.
    - intros [(t & Ht & Hin) _]. apply in_prod_iff in Hin. destruct Hin as [H1 H2].
      apply in_unblock in H1, H2; auto. destruct H1 as (n1 & c1 & [<- | []] & Hc1 & E1). destruct H2 as (n2 & c2 & Hn2 & Hc2 & E2).
      apply D in E1, E2; auto. exists t. rewrite <- E2.
      split; [exact Ht|]. split; [symmetry; exact E1|]. split; [apply Z.div_pos; lia|].
      split; [rewrite E2; apply Z.div_pos; lia|]. split; [exact Hn2|discriminate].
    - intros (t & Ht & E & _ & _ & Hc & _). split; [|lia]. exists t. split; [exact Ht|]. apply in_prod_iff. split; apply in_unblock; auto.
      + exists (i / bs), (i mod bs). split; [left; symmetry; exact E|]. split; [apply Z.mod_pos_bound; lia|apply Z.div_mod; lia].
      + exists (j / bs), (j mod bs). split; [exact Hc|]. split; [apply Z.mod_pos_bound; lia|apply Z.div_mod; lia].
  Qed.
End Loc.

Lemma sym_counts_len : forall row hi cols, row < hi ->
  sym_counts row hi cols = (Z.of_nat (length (filter (fun c => (row <=? c) && (c <? hi)) cols)),
                            Z.of_nat (length (filter (fun c => hi <=? c) cols))).
Proof.
  intros row hi cols Hr. unfold sym_counts.
  assert (K : forall l d o, fold_left (fun s c => let (dnz, onz) := (s : Z * Z) in
      if hi <=? c then (dnz, onz + 1) else if row <=? c then (dnz + 1, onz) else (dnz, onz)) l (d, o) =
      (d + Z.of_nat (length (filter (fun c => (row <=? c) && (c <? hi)) l)), o + Z.of_nat (length (filter (fun c => hi <=? c) l)))).
  { induction l as [|c l IH]; intros d o.
    - cbn. f_equal; lia.
    - cbn [fold_left filter]. destruct (hi <=? c) eqn:E1.
      + rewrite IH. replace ((row <=? c) && (c <? hi)) with false by lia. cbn [length]. f_equal; lia.
      + destruct (row <=? c) eqn:E2; rewrite IH.
        * replace (true && (c <? hi)) with true by lia. cbn [length]. f_equal; lia.
        * cbn [andb]. f_equal; lia. }
  rewrite K. reflexivity.
Qed.

(** Dropping the blocks below the diagonal changes no entry on or above it. *)
Lemma upper_sum : forall bs l t u, t / bs <= u / bs ->
  rsum (fun p => let '(i, j, x) := p in if (i =? t)%Z && (j =? u)%Z then x else 0%R) (upper_entries bs l) =
  rsum (fun p => let '(i, j, x) := p in if (i =? t)%Z && (j =? u)%Z then x else 0%R) l.
Proof.
  intros bs l t u Hle. unfold upper_entries. induction l as [|[[i j] x] l IH]; [reflexivity|].
  cbn [filter]. destruct (i / bs <=? j / bs) eqn:E.
  - rewrite !rsum_cons, IH. reflexivity.
  - rewrite rsum_cons, IH. destruct ((i =? t) && (j =? u)) eqn:E2; [|ring].
    exfalso. apply andb_prop in E2. destruct E2 as [E3 E4]. apply Z.eqb_eq in E3, E4. subst. apply Z.leb_gt in E. lia.
Qed.

Lemma compute_sym_upper : forall size G dof elems mapping Ke ins L0 order t u, 0 <= t -> 0 <= u -> t / dof <= u / dof ->
  compute_sym size G dof elems mapping Ke ins L0 order t u = compute_matrix size G dof elems mapping Ke ins L0 order t u.
Proof.
  intros size G dof elems mapping Ke ins L0 order t u Ht Hu Hle. unfold compute_sym, compute_matrix.
  set (f := fun (r : Z) (t u : Z) => rsum (fun e => rsum (fun p => let '(i, j, x) := p in if (i =? t)%Z && (j =? u)%Z then x else 0%R)
     (mat_entries size G dof mapping Ke ins L0 r e)) (elems r)).
  transitivity (0 + rsum (fun r => f r t u) order)%R; [|symmetry].
  - refine (fold_rsum2 _ _ _ _ (fun r t u => f r t u) t u order _ _). intros V r _.
    unfold f. refine (fold_rsum2 _ _ _ _ (fun e t u => rsum (fun p => let '(i, j, x) := p in if (i =? t)%Z && (j =? u)%Z then x else 0%R)
     (mat_entries size G dof mapping Ke ins L0 r e)) t u (elems r) _ _). intros V' e _.
    rewrite add_entries2_spec by auto. rewrite upper_sum by exact Hle. reflexivity.
  - refine (fold_rsum2 _ _ _ _ (fun r t u => f r t u) t u order _ _). intros V r _.
    unfold f. refine (fold_rsum2 _ _ _ _ (fun e t u => rsum (fun p => let '(i, j, x) := p in if (i =? t)%Z && (j =? u)%Z then x else 0%R)
     (mat_entries size G dof mapping Ke ins L0 r e)) t u (elems r) _ _). intros V' e _.
    rewrite add_entries2_spec by auto. reflexivity.
Qed.
