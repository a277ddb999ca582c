From Coq Require Import ZArith List Bool Reals Lia Lra FunctionalExtensionality.
From Verif Require Import Prelude RealOrd AxisModel AxisInitModel AxisInitProofs AxisProofs AxisProofs2 RuleModel OptModel OptSpec OptProofs OptProofs2 OptProofs3.
Import ListNotations.
Open Scope Z_scope.

(** ** a direction that has been initialised *)
Lemma built_facts : forall per p N L C a, built per p N L C a ->
  1 <= p /\ 1 <= N /\ ax_periodic a = per /\ ax_p a = p /\ ax_nel a = N /\ 3 <= ax_m a /\
  ax_U a (ax_p a) = fst L /\ ax_U a (ax_m a - ax_p a) = snd L.
Proof.
  intros per p N L C a (U0 & a1 & a2 & H1 & H2 & H3).
  unfold axis_set_periodic in H1. injection H1 as <-. unfold axis_set_degree in H2. cbn in H2.
  destruct (p <? 1) eqn:Ep; [discriminate|]. apply Z.ltb_ge in Ep. injection H2 as <-.
  unfold axis_init_uniform in H3. cbn [ax_p] in H3. rewrite (proj2 (Z.ltb_ge p 1) Ep) in H3.
  destruct (Z.ltb_spec N 1) as [|EN]; [discriminate|]. destruct (Rltb (fst L) (snd L)) eqn:EL; cbn [negb] in H3; [|discriminate].
  set (C1 := if C =? PETSC_DECIDE then p - 1 else C) in H3.
  destruct ((C1 <? 0) || (p <=? C1)) eqn:EC; [discriminate|]. apply orb_false_iff in EC. destruct EC as (EC1 & EC2).
  apply Z.ltb_ge in EC1. apply Z.leb_gt in EC2. injection H3 as <-.
  set (brk := uniform_break N (fst L) (snd L)).
  assert (HC : 0 <= C1 < p) by lia.
  pose proof (final_domain p C1 N brk U0 HC EN per 0 ltac:(lia)) as (D0 & _).
  pose proof (final_domain p C1 N brk U0 HC EN per (N - 1) ltac:(lia)) as (_ & DN). specialize (DN ltac:(lia)). replace (N - 1 + 1) with N in DN by lia.
  assert (Hprod : 0 <= (N - 1) * (p - C1)) by (apply Z.mul_nonneg_nonneg; lia).
  unfold init_body; cbn [ax_periodic ax_p ax_m ax_nel ax_U].
  split; [lia|]. split; [lia|]. split; [reflexivity|]. split; [reflexivity|]. split; [reflexivity|]. split; [lia|]. split.
  - replace (p + 0 * (p - C1)) with p in D0 by lia. unfold brk, uniform_break in D0. cbn [Z.eqb] in D0. exact D0.
  - change (final p C1 N brk U0 per (2 * (p + 1) + (N - 1) * (p - C1) - 1 - p) = snd L).
    replace (2 * (p + 1) + (N - 1) * (p - C1) - 1 - p) with (p + (N - 1) * (p - C1) + 1) by ring.
    unfold brk, uniform_break in DN. rewrite Z.eqb_refl in DN.
    replace (N =? 0) with false in DN by (symmetry; apply Z.eqb_neq; lia). exact DN.
Qed.

Lemma built_again : forall per p N L C a U1, built per p N L C a ->
  exists a', bind (axis_set_periodic per axis_reset) (fun b => bind (axis_set_degree p b) (axis_init_uniform N (fst L) (snd L) C U1)) = (Ok, a') /\
             same_axis a' a.
Proof.
  intros per p N L C a U1 (U0 & a1 & a2 & H1 & H2 & H3).
  unfold axis_reset. rewrite H1. cbn [bind]. rewrite H2. cbn [bind].
  unfold axis_set_periodic in H1. injection H1 as <-. unfold axis_set_degree in H2. cbn in H2.
  destruct (p <? 1) eqn:Ep; [discriminate|]. apply Z.ltb_ge in Ep. injection H2 as <-.
  unfold axis_init_uniform in *. cbn [ax_p] in *. rewrite (proj2 (Z.ltb_ge p 1) Ep) in *.
  destruct (Z.ltb_spec N 1) as [|EN]; [discriminate|]. destruct (Rltb (fst L) (snd L)) eqn:EL; cbn [negb] in *; [|discriminate].
  set (C1 := if C =? PETSC_DECIDE then p - 1 else C) in *.
  destruct ((C1 <? 0) || (p <=? C1)) eqn:EC; [discriminate|]. apply orb_false_iff in EC. destruct EC as (EC1 & EC2).
  apply Z.ltb_ge in EC1. apply Z.leb_gt in EC2. injection H3 as <-.
  set (brk := uniform_break N (fst L) (snd L)).
  assert (HC : 0 <= C1 < p) by lia.
  eexists. split; [reflexivity|]. unfold same_axis. repeat (split; [reflexivity|]).
  intros i Hi.
  apply Rltb_true in EL. pose proof (uniform_break_increasing N _ _ EN EL) as Hinc. fold brk in Hinc.
  change (final p C1 N brk U1 per i = final p C1 N brk U0 per i). cbn [init_body ax_m ax_p] in Hi.
  rewrite !final_spec; auto; lia.
Qed.

(** ** processors *)
Definition prod_pos (P : Z -> Z) (l : list Z) : Z := fold_left (fun acc k => if 0 <? P k then acc * P k else acc) l 1.

Lemma fold_mul : forall (c : Z -> bool) (P : Z -> Z) l a, fold_left (fun acc k => if c k then acc * P k else acc) l a
  = a * fold_left (fun acc k => if c k then acc * P k else acc) l 1.
Proof.
  intros c P l. induction l as [|k l IH]; intros a; cbn [fold_left]; [lia|].
  rewrite IH. rewrite (IH (if c k then 1 * P k else 1)). destruct (c k); ring.
Qed.

Lemma fold_skip_absent : forall i np P l, ~ In i l ->
  fold_left (fun acc k => if negb (k =? i) && (0 <? P k) then acc * P k else acc) l 1 = prod_pos (upd P i np) l.
Proof.
  intros i np P l. unfold prod_pos. induction l as [|k l IH]; intros Hni; [reflexivity|]. cbn [fold_left].
  rewrite fold_mul. rewrite (fold_mul (fun k => 0 <? upd P i np k)). rewrite IH by (intros K; apply Hni; right; exact K).
  rewrite upd_other by (intros ->; apply Hni; left; reflexivity).
  replace (k =? i) with false by (symmetry; apply Z.eqb_neq; intros ->; apply Hni; left; reflexivity). reflexivity.
Qed.

Lemma fold_skip : forall i np P l, NoDup l -> In i l -> 0 < np ->
  fold_left (fun acc k => if negb (k =? i) && (0 <? P k) then acc * P k else acc) l np = prod_pos (upd P i np) l.
Proof.
  intros i np P l. induction l as [|k l IH]; intros Hnd Hin Hnp; [destruct Hin|].
  inversion Hnd as [|? ? Hni Hnd']; subst. unfold prod_pos. cbn [fold_left].
  destruct (Z.eq_dec k i) as [->|Hne].
  - rewrite Z.eqb_refl. cbn [negb andb]. rewrite upd_same. rewrite (proj2 (Z.ltb_lt 0 np) Hnp).
    rewrite fold_mul, (fold_mul (fun k => 0 <? upd P i np k)). rewrite (fold_skip_absent i np P l Hni). unfold prod_pos. ring.
  - destruct Hin as [|Hin]; [congruence|].
    replace (k =? i) with false by (symmetry; apply Z.eqb_neq; exact Hne). cbn [negb andb].
    rewrite upd_other by exact Hne. rewrite (fold_mul (fun k => 0 <? upd P i np k)).
    fold (prod_pos (upd P i np) l). rewrite <- IH by assumption.
    rewrite fold_mul. rewrite (fold_mul _ _ _ np). destruct (0 <? P k); ring.
Qed.

Lemma prod_pos_divides : forall P l i, In i l -> 0 < P i -> (P i | prod_pos P l).
Proof.
  intros P l i. unfold prod_pos. induction l as [|k l IH]; intros Hin Hp; [destruct Hin|]. cbn [fold_left].
  rewrite fold_mul. destruct Hin as [->|Hin].
  - rewrite (proj2 (Z.ltb_lt 0 (P i)) Hp). apply Z.divide_mul_l. exists 1. ring.
  - apply Z.divide_mul_r. apply IH; assumption.
Qed.
Lemma prod_pos_pos : forall P l, 0 < prod_pos P l.
Proof.
  intros P l. unfold prod_pos. induction l as [|k l IH]; [reflexivity|]. cbn [fold_left]. rewrite fold_mul.
  destruct (Z.ltb_spec 0 (P k)); nia.
Qed.

Definition procs_step size (pr : Z -> Z) := fun i => when (0 <? pr i) (set_processors size i (pr i)).

Lemma set_processors_ok : forall size i np g g1, 0 <= i < dim_or_3 g -> set_processors size i np g = (Ok, g1) ->
  g1 = with_procs (upd (og_procs g) i np) g /\ 0 < np /\ og_setup g = false /\ size mod prod_pos (upd (og_procs g) i np) (zseq 0 (dim_or_3 g)) = 0.
Proof.
  intros size i np g g1 Hi H. unfold set_processors in H. destruct (og_setup g); [discriminate|].
  destruct (Z.ltb_spec np 1); [discriminate|]. destruct (negb (size mod np =? 0)); [discriminate|].
  destruct (Z.eqb_spec (size mod fold_left (fun prod k => if negb (k =? i) && (0 <? og_procs g k) then prod * og_procs g k else prod) (zseq 0 (dim_or_3 g)) np) 0) as [E|E];
    cbn [negb] in H; [|discriminate].
  injection H as <-. split; [reflexivity|]. split; [lia|]. split; [reflexivity|].
  rewrite fold_skip in E; [exact E|apply NoDup_zseq|apply in_zseq; lia|lia].
Qed.

Lemma procs_run : forall size pr g n g1, n <= dim_or_3 g ->
  for_each (zseq 0 n) (procs_step size pr) g = (Ok, g1) ->
  exists P, g1 = with_procs P g /\ (forall i, 0 <= i < n -> 0 < pr i -> P i = pr i) /\
    ((exists i, 0 <= i < n /\ 0 < pr i) -> size mod prod_pos P (zseq 0 (dim_or_3 g)) = 0).
Proof.
  intros size pr g n g1 Hn H.
  assert (G : forall l h P, (forall i, In i l -> 0 <= i < dim_or_3 g) -> NoDup l -> h = with_procs P g ->
    for_each l (procs_step size pr) h = (Ok, g1) ->
    exists P', g1 = with_procs P' g /\ (forall i, In i l -> 0 < pr i -> P' i = pr i) /\ (forall i, ~ In i l -> P' i = P i) /\
      ((exists i, In i l /\ 0 < pr i) \/ size mod prod_pos P (zseq 0 (dim_or_3 g)) = 0 -> size mod prod_pos P' (zseq 0 (dim_or_3 g)) = 0)).
  { clear H. induction l as [|i l IH]; intros h P Hl Hnd -> H.
    - cbn in H. injection H as <-. exists P. split; [reflexivity|]. split; [intros i []|]. split; [reflexivity|].
      intros [(i & [] & _)|E]; exact E.
    - inversion Hnd as [|? ? Hni Hnd']; subst. rewrite for_each_cons in H. apply bind_ok in H. destruct H as (h1 & H1 & H).
      unfold procs_step, when in H1. destruct (Z.ltb_spec 0 (pr i)) as [Hp|Hp].
      + apply set_processors_ok in H1; [|apply Hl; left; reflexivity]. destruct H1 as (-> & _ & _ & E1).
        destruct (IH (with_procs (upd P i (pr i)) g) (upd P i (pr i)) (fun j Hj => Hl j (or_intror Hj)) Hnd' eq_refl H) as (P' & E & K1 & K2 & K3).
        exists P'. split; [exact E|]. split; [|split].
        * intros j [<-|Hj] Hpj; [rewrite K2 by exact Hni; apply upd_same|apply K1; assumption].
        * intros j Hj. rewrite K2 by (intros K; apply Hj; right; exact K). apply upd_other. intros ->. apply Hj. left; reflexivity.
        * intros _. apply K3. right. exact E1.
      + injection H1 as <-.
        destruct (IH _ P (fun j Hj => Hl j (or_intror Hj)) Hnd' eq_refl H) as (P' & E & K1 & K2 & K3).
        exists P'. split; [exact E|]. split; [|split].
        * intros j [<-|Hj] Hpj; [lia|apply K1; assumption].
        * intros j Hj. apply K2. intros K. apply Hj. right; exact K.
        * intros [(j & [<-|Hj] & Hpj)|Hm]; [lia|apply K3; left; eauto|apply K3; right; exact Hm]. }
  destruct (G (zseq 0 n) g (og_procs g)) as (P & E & K1 & _ & K3); auto.
  - intros i Hi. apply in_zseq in Hi. lia.
  - apply NoDup_zseq.
  - destruct g; reflexivity.
  - exists P. split; [exact E|]. split.
    + intros i Hi. apply K1. apply in_zseq. lia.
    + intros (i & Hi & Hp). apply K3. left. exists i. split; [apply in_zseq; lia|exact Hp].
Qed.

Lemma procs_rerun : forall size pr g n, n <= dim_or_3 g -> og_setup g = false ->
  (forall i, 0 <= i < n -> 0 < pr i -> og_procs g i = pr i) ->
  ((exists i, 0 <= i < n /\ 0 < pr i) -> size mod prod_pos (og_procs g) (zseq 0 (dim_or_3 g)) = 0) ->
  for_each (zseq 0 n) (procs_step size pr) g = (Ok, g).
Proof.
  intros size pr g n Hn Hs HP Hm.
  assert (G : forall l, (forall i, In i l -> 0 <= i < n) -> for_each l (procs_step size pr) g = (Ok, g)).
  2:{ apply G. intros i Hi. apply in_zseq in Hi. lia. }
  induction l as [|i l IH]; intros Hl; [reflexivity|]. rewrite for_each_cons.
  assert (Hi : 0 <= i < n) by (apply Hl; left; reflexivity).
  unfold procs_step at 1, when. destruct (Z.ltb_spec 0 (pr i)) as [Hp|Hp]; [|cbn [bind]; apply IH; intros j Hj; apply Hl; right; exact Hj].
  assert (Hin : In i (zseq 0 (dim_or_3 g))) by (apply in_zseq; lia).
  specialize (Hm (ex_intro _ i (conj Hi Hp))).
  unfold set_processors. rewrite Hs. replace (pr i <? 1) with false by (symmetry; apply Z.ltb_ge; lia).
  assert (Hd : size mod pr i = 0).
  { apply Z.mod_divide; [lia|]. apply Z.divide_trans with (prod_pos (og_procs g) (zseq 0 (dim_or_3 g))).
    - rewrite <- (HP i Hi Hp). apply prod_pos_divides; [exact Hin|rewrite HP by assumption; exact Hp].
    - apply Z.mod_divide; [|exact Hm]. pose proof (prod_pos_pos (og_procs g) (zseq 0 (dim_or_3 g))). lia. }
  rewrite Hd. cbn [Z.eqb negb]. rewrite fold_skip by (try apply NoDup_zseq; assumption).
  rewrite (upd_id_eq _ (og_procs g) i (pr i)) by (symmetry; apply HP; assumption). rewrite Hm. cbn [Z.eqb negb bind].
  replace (with_procs (og_procs g) g) with g by (destruct g; reflexivity). apply IH. intros j Hj. apply Hl. right; exact Hj.
Qed.
