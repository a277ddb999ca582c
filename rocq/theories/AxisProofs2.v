From Coq Require Import ZArith List Bool Lia Reals Lra Sorted.
From Coq Require Import ZifyBool ZifyNat.
From Verif Require Import Prelude RealOrd AxisModel AxisSpec AxisProofs AxisInitModel AxisInitSpec AxisInitProofs.
Import ListNotations.
Open Scope Z_scope.

(** Counting a predicate which selects an interval. *)
Lemma filter_interval : forall (P : Z -> bool) a b lo n,
  lo <= a -> a <= b -> b <= lo + n ->
  (forall i, lo <= i < lo + n -> (P i = true <-> a <= i < b)) ->
  filter P (zseq lo n) = zseq a (b - a).
Proof.
  intros P a b lo n Hlo Hab Hb H.
  replace n with ((a-lo) + ((b-a) + (lo+n-b))) by lia.
  rewrite zseq_app by lia. rewrite zseq_app by lia.
  rewrite !filter_app.
  assert (F : forall l, (forall x, In x l -> P x = false) -> filter P l = []).
  { induction l as [|x l IH]; intros Hl; cbn; auto. rewrite Hl by (left; auto). apply IH. intros; apply Hl; right; auto. }
  assert (T : forall l, (forall x, In x l -> P x = true) -> filter P l = l).
  { induction l as [|x l IH]; intros Hl; cbn; auto. rewrite Hl by (left; auto). f_equal. apply IH. intros; apply Hl; right; auto. }
  rewrite (F (zseq lo (a-lo))), (T (zseq (lo+(a-lo)) (b-a))), (F (zseq (lo+(a-lo)+(b-a)) (lo+n-b))).
  - rewrite app_nil_r. cbn. f_equal. lia.
  - intros x Hx. apply in_zseq in Hx. destruct (P x) eqn:E; auto. apply H in E; lia.
  - intros x Hx. apply in_zseq in Hx. apply H; lia.
  - intros x Hx. apply in_zseq in Hx. destruct (P x) eqn:E; auto. apply H in E; lia.
Qed.

Lemma count_eq_interval : forall (U : Z -> R) lo hi (v : R) a b,
  lo <= a -> a <= b -> b <= hi + 1 ->
  (forall i, lo <= i <= hi -> (U i = v <-> a <= i < b)) ->
  @count_eq Rord U lo hi v = b - a.
Proof.
  intros U lo hi v a b Hlo Hab Hb H. unfold count_eq.
  rewrite (filter_interval _ a b); try lia.
  - rewrite length_zseq. lia.
  - intros i Hi. rewrite keqb_spec, keq_R. apply H. lia.
Qed.

Lemma uniform_break_increasing : forall N Ui Uf, 1 <= N -> (Ui < Uf)%R ->
  brk_increasing N (uniform_break N Ui Uf).
Proof.
  intros N Ui Uf HN HU i Hi.
  assert (HNp : (0 < IZR N)%R) by (apply IZR_lt; lia).
  assert (Hval : forall j, 0 <= j <= N -> uniform_break N Ui Uf j = (Ui + IZR j / IZR N * (Uf - Ui))%R).
  { intros j Hj. unfold uniform_break. destruct (Z.eqb_spec j 0) as [->|].
    - field. lra.
    - destruct (Z.eqb_spec j N) as [->|]; auto. field. lra. }
  rewrite !Hval by lia.
  assert (IZR (i-1) / IZR N < IZR i / IZR N)%R.
  { unfold Rdiv. apply Rmult_lt_compat_r; [apply Rinv_0_lt_compat; auto|]. apply IZR_lt; lia. }
  nra.
Qed.

Lemma uniform_break_value : forall N Ui Uf b, 1 <= N -> 0 <= b <= N ->
  uniform_break N Ui Uf b = (Ui + IZR b / IZR N * (Uf - Ui))%R.
Proof.
  intros N Ui Uf j HN Hj. assert (HNp : (0 < IZR N)%R) by (apply IZR_lt; lia).
  unfold uniform_break. destruct (Z.eqb_spec j 0) as [->|].
  - field. lra.
  - destruct (Z.eqb_spec j N) as [->|]; auto. field. lra.
Qed.

Lemma init_body_good : forall brk r C U0 (a : axis Rord),
  0 <= C < ax_p a -> 1 <= r -> brk_increasing r brk ->
  good_axis (ax_p a) C r brk (ax_periodic a) (init_body brk r C U0 a).
Proof.
  intros brk r C U0 a HC Hr Hbrk.
  set (p := ax_p a) in *. set (per := ax_periodic a).
  set (s := p - C). set (m := 2*(p+1) + (r-1)*s - 1).
  assert (HU : ax_U (init_body brk r C U0 a) = final p C r brk U0 per) by reflexivity.
  assert (Hm : ax_m (init_body brk r C U0 a) = m) by reflexivity.
  assert (Hms : m = 2*p+1+(r-1)*s) by (unfold m; lia).
  assert (Hnn : ax_nnp (init_body brk r C U0 a) = if per then r*s else r*s + C + 1).
  { cbn. fold per p. fold s. fold m. unfold m, s. destruct per; ring. }
  assert (Hs : 1 <= s) by (unfold s; lia).
  assert (Hm2 : 2*p+1 <= m) by nia.
  constructor; try rewrite HU; try rewrite Hm; try reflexivity.
  - lia.
  - apply final_valid; auto.
  - exists (map (fun i => p + i*s) (zseq 0 r)). split; [reflexivity|]. split.
    { rewrite map_length, length_zseq. lia. }
    split; [apply final_elements; auto|].
    intros b Hb. split.
    + rewrite (nth_indep _ 0 (p + 0*s)) by (rewrite map_length, length_zseq; lia).
      rewrite (map_nth (fun i => p + i*s)). rewrite nth_zseq by lia. fold s. lia.
    + destruct (final_domain p C r brk U0 HC Hr per b ltac:(lia)) as [F1 F2]. split; [auto|apply F2; lia].
  - exact Hnn.
  - rewrite Hnn. unfold p, m, s. rewrite final_nnp; auto.
  - intros b Hb.
    rewrite (count_eq_interval _ _ _ _ (p+1+(b-1)*s) (p+1+b*s)); [unfold s; lia|nia|nia|nia|].
    intros i Hi. rewrite (final_eq_iff p C r brk U0 HC Hr Hbrk per i b) by (fold s m; lia).
    rewrite ebidx_dom by (fold s m; auto). fold s. rewrite <- (bidx_range p s i b) by lia. lia.
  - intros -> i Hi Him. rewrite Hnn in *. apply final_periodic; auto.
  - intros ->.
    assert (Hiff : forall i b, 0 <= i <= m -> 0 <= b <= r ->
       (final p C r brk U0 false i = brk b <-> Z.max 0 (Z.min r (bidx p s i)) = b)).
    { intros i b Hi Hb. apply (final_eq_iff p C r brk U0 HC Hr Hbrk false i b); auto. }
    assert (Hlo : forall i, bidx p s i <= 0 <-> i <= p).
    { intros i. split; intros H.
      - destruct (Z.leb_spec i p); auto. pose proof (bidx_mono p s (p+1) i Hs ltac:(lia)) as H1.
        replace (bidx p s (p+1)) with 1 in H1 by (symmetry; apply bidx_range; nia). lia.
      - pose proof (bidx_mono p s i p Hs ltac:(lia)) as H1.
        replace (bidx p s p) with 0 in H1 by (symmetry; apply bidx_range; nia). lia. }
    assert (Hhi : forall i, r <= bidx p s i <-> m - p <= i).
    { intros i. split; intros H.
      - destruct (Z.leb_spec (m-p) i); auto. pose proof (bidx_mono p s i (m-p-1) Hs ltac:(lia)) as H1.
        replace (bidx p s (m-p-1)) with (r-1) in H1 by (symmetry; apply bidx_range; nia). lia.
      - pose proof (bidx_mono p s (m-p) i Hs ltac:(lia)) as H1.
        replace (bidx p s (m-p)) with r in H1 by (symmetry; apply bidx_range; nia). lia. }
    split; [|split; [|split; [|split; [|split]]]].
    + intros i Hi. apply Hiff; try lia. specialize (Hlo i). lia.
    + intros i Hi. apply Hiff; try lia. specialize (Hhi i). lia.
    + rewrite (count_eq_interval _ _ _ _ 0 (p+1)); try lia.
      intros i Hi. rewrite Hiff by lia. specialize (Hlo i). lia.
    + rewrite (count_eq_interval _ _ _ _ (m-p) (m+1)); try lia.
      intros i Hi. rewrite Hiff by lia. specialize (Hhi i). lia.
    + intros b Hb.
      rewrite (count_eq_interval _ _ _ _ (p+1+(b-1)*s) (p+1+b*s)); [unfold s; lia|nia|nia|nia|].
      intros i Hi. rewrite Hiff by lia. rewrite <- (bidx_range p s i b) by lia. lia.
    + intros i Hi. exists (Z.max 0 (Z.min r (bidx p s i))). split; [lia|]. apply Hiff; lia.
Qed.

(** ** the API routines *)
Definition eff_C (C0 p : Z) : Z := if C0 =? PETSC_DECIDE then p - 1 else C0.

Lemma init_uniform_spec : forall N Ui Uf C0 U0 (a : axis Rord),
  let (st, a') := axis_init_uniform N Ui Uf C0 U0 a in
  let p := ax_p a in let C := eff_C C0 p in
  (st = Ok <-> 1 <= p /\ 1 <= N /\ (Ui < Uf)%R /\ 0 <= C < p) /\
  (st <> Ok -> a' = a) /\
  (st = Ok -> good_axis p C N (fun b => Ui + IZR b / IZR N * (Uf - Ui))%R (ax_periodic a) a').
Proof.
  intros N Ui Uf C0 U0 a. unfold axis_init_uniform. fold (eff_C C0 (ax_p a)).
  set (C := eff_C C0 (ax_p a)).
  destruct (Z.ltb_spec (ax_p a) 1); [repeat split; try discriminate; auto; lia|].
  destruct (Z.ltb_spec N 1); [repeat split; try discriminate; auto; lia|].
  destruct (Rltb Ui Uf) eqn:E; cbn [negb].
  2:{ apply Rltb_false in E. repeat split; try discriminate; auto; lra. }
  apply Rltb_true in E.
  destruct (Z.ltb_spec C 0), (Z.leb_spec (ax_p a) C); cbn [orb];
    try (repeat split; try discriminate; auto; lia).
  split; [|split].
  - split; auto.
  - congruence.
  - intros _.
    pose proof (init_body_good (uniform_break N Ui Uf) N C U0 a ltac:(lia) ltac:(lia)
                  (uniform_break_increasing N Ui Uf ltac:(lia) E)) as G.
    destruct G as [G1 G2 G3 G4 G5 G6 G7 G8 G9 G10 G11]. constructor; auto.
    + destruct G6 as (l & L1 & L2 & L3 & L4). exists l. repeat split; auto; try apply L3; try apply L4; auto.
      * rewrite <- uniform_break_value by lia. apply L4; lia.
      * rewrite <- uniform_break_value by lia. apply L4; lia.
    + intros b Hb. rewrite <- uniform_break_value by lia. apply G9; auto.
    + intros Hp i Hi Him. rewrite <- !uniform_break_value by lia. apply G10; auto.
    + intros Hp. destruct (G11 Hp) as (K1 & K2 & K3 & K4 & K5 & K6).
      rewrite <- !uniform_break_value by lia.
      repeat (split; [solve [auto]|]). split.
      * intros b Hb. rewrite <- uniform_break_value by lia. auto.
      * intros i Hi. destruct (K6 i Hi) as (b & Hb & HE). exists b. split; auto.
        rewrite <- uniform_break_value by lia. auto.
Qed.

Lemma init_breaks_spec : forall nu u C0 U0 (a : axis Rord),
  let (st, a') := axis_init_breaks nu u C0 U0 a in
  let p := ax_p a in let C := eff_C C0 p in
  (st = Ok <-> 1 <= p /\ 2 <= nu /\ (forall i, 1 <= i < nu -> (u (i-1)%Z < u i)%R) /\ 0 <= C < p) /\
  (st <> Ok -> a' = a) /\
  (st = Ok -> good_axis p C (nu-1) u (ax_periodic a) a').
Proof.
  intros nu u C0 U0 a. unfold axis_init_breaks. fold (eff_C C0 (ax_p a)).
  set (C := eff_C C0 (ax_p a)).
  destruct (Z.ltb_spec (ax_p a) 1); [repeat split; try discriminate; auto; lia|].
  destruct (Z.ltb_spec nu 2); [repeat split; try discriminate; auto; lia|].
  destruct (existsb _ _) eqn:E.
  { apply existsb_exists in E. destruct E as (i & Hi & Hn). apply in_zseq in Hi.
    repeat split; try discriminate; auto. intros (_ & _ & Hinc & _). exfalso.
    specialize (Hinc i ltac:(lia)). apply Rltb_true in Hinc. rewrite Hinc in Hn. discriminate. }
  assert (Hinc : forall i, 1 <= i < nu -> (u (i-1)%Z < u i)%R).
  { intros i Hi. destruct (Rltb (u (i-1)) (u i)) eqn:E2; [apply Rltb_true; auto|].
    exfalso. rewrite <- not_true_iff_false in E. apply E. apply existsb_exists. exists i.
    rewrite in_zseq, E2. split; [lia|auto]. }
  destruct (Z.ltb_spec C 0), (Z.leb_spec (ax_p a) C); cbn [orb];
    try (repeat split; try discriminate; auto; lia).
  split; [|split].
  - split; auto.
  - congruence.
  - intros _. apply init_body_good; try lia. intros i Hi. apply Hinc; lia.
Qed.

(** SetUp after an initialisation changes nothing. *)
Lemma setup_good : forall p C r brk per (a : axis Rord),
  1 <= p -> good_axis p C r brk per a -> axis_setup a = (Ok, a).
Proof.
  intros p C r brk per a Hp [G1 G2 G3 G4 G5 G6 G7 G8 G9 G10 G11].
  destruct G6 as (l & L1 & _). destruct G4 as (_ & V2 & _).
  unfold axis_setup. rewrite G2.
  replace (p <? 1) with false by lia. replace (ax_m a <? 2*p+1) with false by lia.
  rewrite L1. rewrite G1, <- G8. destruct a; cbn in *. subst. reflexivity.
Qed.

Section More.
  Context {O : KnotOrd}.

  Lemma set_knots_nnp : forall (a : axis O) m U a',
    axis_set_knots m U a = (Ok, a') ->
    ax_nnp a' = (if ax_periodic a
                 then (m - ax_p a - 1) - (ax_p a - count_eq U (m - ax_p a) (m-1) (U (m - ax_p a)))
                 else m - ax_p a) /\
    1 <= ax_nnp a' <= m - ax_p a /\
    axis_setup a' = (Ok, a').
  Proof.
    intros a m U a' H. pose proof (set_knots_exact a m U) as HE. rewrite H in HE.
    destruct HE as ((H1 & _) & _). specialize (H1 eq_refl). destruct H1 as (Hp & Hm & Hnd & Hc).
    unfold axis_set_knots in H.
    replace (ax_p a <? 1) with false in H by lia.
    replace (m <? 2 * ax_p a + 1) with false in H by lia.
    destruct (negb (increasing_ok m U)); [discriminate|].
    destruct (multiplicity_ok (ax_p a) m U) as [[|]|]; try discriminate.
    destruct (get_spans_spec (ax_p a) m U Hp Hm Hnd) as (l & Hl & HL). rewrite Hl in H.
    inversion H; subst; cbn. split; [|split].
    - unfold axis_nnp. destruct (ax_periodic a); [|lia].
      replace (m - ax_p a - 1 + 1) with (m - ax_p a) by lia.
      rewrite end_multiplicity by auto. reflexivity.
    - apply axis_nnp_bounds; auto.
    - unfold axis_setup; cbn. replace (ax_p a <? 1) with false by lia.
      replace (m <? 2 * ax_p a + 1) with false by lia. reflexivity.
  Qed.

  (** Deciding validity by running the code. *)
  Lemma valid_by_run : forall p m (U : Z -> O) (u0 : O),
    fst (axis_set_knots m U (@mk_axis O false p 1 (fun _ => u0) 1 1 (Some [0]))) = Ok ->
    valid_knots p m U.
  Proof.
    intros p m U u0 H.
    pose proof (set_knots_exact (@mk_axis O false p 1 (fun _ => u0) 1 1 (Some [0])) m U) as HE.
    destruct (axis_set_knots m U (mk_axis false p 1 (fun _ => u0) 1 1 (Some [0]))) as [st a'].
    cbn in H. apply HE. auto.
  Qed.

  (** positive part of C06 *)
  Lemma set_knots_has_element : forall (a : axis O) m U a',
    axis_set_knots m U a = (Ok, a') ->
    (1 <= ax_nel a' <-> klt (U (ax_p a)) (U (m - ax_p a))) /\
    (ax_p a = 1 \/ keq (U 1) (U (ax_p a)) \/ keq (U (m - ax_p a)) (U (m-1)) -> 1 <= ax_nel a').
  Proof.
    intros a m U a' H. destruct (set_knots_spans a m U a' H) as (l & L1 & L2 & L3).
    pose proof (set_knots_exact a m U) as HE. rewrite H in HE.
    destruct HE as ((H1 & _) & _). specialize (H1 eq_refl). destruct H1 as (Hp & Hm & Hnd & Hc).
    assert (Hiff : 1 <= ax_nel a' <-> klt (U (ax_p a)) (U (m - ax_p a))).
    { rewrite nonempty_has_element by auto. rewrite L2. destruct L3 as [L3 _]. split.
      - intros Hlen. destruct l as [|k l]; [cbn in Hlen; lia|]. exists k. apply L3. left; auto.
      - intros (k & Hk). apply L3 in Hk. destruct l; [destruct Hk|]. cbn [length]. lia. }
    split; auto. rewrite Hiff. clear Hiff L1 L2 L3 l H.
    apply (count_eq_mult_bound (ax_p a) m U Hp Hnd) in Hc.
    intros [H1|[H1|H1]].
    - rewrite H1 in *. apply klt_le_trans with (U 2); [apply (Hc 1); lia|apply Hnd; lia].
    - apply keq_le in H1. destruct H1 as [_ H1].
      apply kle_lt_trans with (U 1); auto.
      apply klt_le_trans with (U (1 + ax_p a)); [apply Hc; lia|apply Hnd; lia].
    - apply keq_le in H1. destruct H1 as [_ H1].
      apply kle_lt_trans with (U (m - 1 - ax_p a)); [apply Hnd; lia|].
      apply klt_le_trans with (U (m - 1)); auto.
      replace (m-1) with (m-1-ax_p a + ax_p a) at 2 by lia. apply Hc; lia.
  Qed.

  Lemma axis_init_failure : forall (a a' : axis O) p m U st,
    axis_init p m U a = (st, a') -> st <> Ok ->
    ax_m a' = ax_m a /\ ax_U a' = ax_U a /\ ax_span a' = ax_span a /\
    ax_nel a' = ax_nel a /\ ax_nnp a' = ax_nnp a /\ ax_periodic a' = ax_periodic a.
  Proof.
    intros a a' p m U st H Hst. unfold axis_init in H.
    unfold axis_set_degree in H. cbn in H.
    destruct (p <? 1).
    { inversion H; subst; cbn; auto 10. }
    replace (0 <? 0) with false in H by lia. cbn in H.
    pose proof (set_knots_exact (@mk_axis O (ax_periodic a) p (ax_m a) (ax_U a) (ax_nnp a) (ax_nel a) (ax_span a)) m U) as HE.
    rewrite H in HE. destruct HE as (_ & _ & HE & _). rewrite (HE Hst). cbn. auto 10.
  Qed.

  (** FindSpan *)
  Lemma find_span_domain : forall n p u (U : Z -> O), 0 <= p <= n ->
    klt (U p) (U (p+1)) -> klt (U n) (U (n+1)) ->
    kle (U p) u -> kle u (U (n+1)) ->
    exists k, find_span n p u U = Some k /\ p <= k <= n /\
      klt (U k) (U (k+1)) /\ kle (U k) u /\ kle u (U (k+1)) /\
      (klt u (U (k+1)) \/ (k = n /\ keq u (U (n+1)))).
  Proof.
    intros n p u U Hpn H1 H2 Hlo Hhi.
    destruct (find_span_spec n p u U ltac:(lia)) as (k & Hk & Hb & Hc). exists k.
    split; auto. split; auto.
    destruct Hc as [[Hc ->]|[(Hc & Hc2 & ->)|[Hc Hc2]]].
    - repeat split; auto.
      + eapply kle_trans; [exact Hc|apply klt_le; auto].
      + left. eapply kle_lt_trans; eauto.
    - repeat split; auto.
      + eapply kle_trans; [apply klt_le; exact H2|auto].
      + right. split; auto. apply keq_le; auto.
    - repeat split; auto.
      + eapply kle_lt_trans; eauto.
      + apply klt_le; auto.
  Qed.

  Lemma find_span_loop_local : forall u (U V : Z -> O) fuel low high span,
    low < high -> span = (high + low) / 2 ->
    kle (U low) u -> klt u (U high) ->
    (forall i, low <= i <= high -> U i = V i) ->
    find_span_loop u U fuel low high span = find_span_loop u V fuel low high span.
  Proof.
    intros u U V. induction fuel as [|f IH]; intros low high span Hlh Hspan Hlo Hhi Hag; cbn [find_span_loop].
    - rewrite !Hag by lia. reflexivity.
    - rewrite <- !Hag by lia.
      destruct (kltb u (U span)) eqn:E1; cbn [orb].
      + assert (span <> low) by (intros ->; unfold kle in Hlo; congruence).
        apply IH; auto; try lia. intros; apply Hag; lia.
      + destruct (kltb u (U (span+1))) eqn:E2; cbn [negb]; auto.
        assert (span + 1 <> high) by (intros Heq; rewrite Heq in E2; unfold klt in Hhi; congruence).
        apply IH; auto; try lia. intros; apply Hag; lia.
  Qed.

  Lemma find_span_local : forall n p u (U V : Z -> O), p <= n ->
    (forall i, p <= i <= n+1 -> U i = V i) -> find_span n p u U = find_span n p u V.
  Proof.
    intros n p u U V Hpn Hag. unfold find_span.
    rewrite <- (Hag p), <- (Hag (n+1)) by lia.
    destruct (kltb (U p) u) eqn:E1; cbn [negb]; auto.
    destruct (kltb u (U (n+1))) eqn:E2; cbn [negb]; auto.
    apply find_span_loop_local; auto; try lia. apply klt_le; auto.
  Qed.
End More.
