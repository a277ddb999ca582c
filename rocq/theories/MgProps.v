(** Property theorems about the multigrid hierarchy: C48, C76. *)
From Coq Require Import ZArith List Bool Lia Znumtheory.
From Coq Require Import ZifyBool ZifyNat.
From Verif Require Import Prelude AxisInitModel AxisInitProofs MgModel MgSpec.
Import ListNotations.
Open Scope Z_scope.

Lemma fold_upd_all (dim : Z) (g : (Z -> Z) -> Z -> Z) (f : Z -> Z) :
  (forall f f' i, f i = f' i -> g f i = g f' i) ->
  forall i, fold_left (fun f i => upd f i (g f i)) (zseq 0 dim) f i = if (0 <=? i) && (i <? dim) then g f i else f i.
Proof.
  intros Hg i.
  pose proof (fold_zseq_inv _ (fun f i => upd f i (g f i))
    (fun n f' => forall i, f' i = if (0 <=? i) && (i <? n) then g f i else f i) 0 dim f) as K.
  replace (if (0 <=? i) && (i <? dim) then g f i else f i) with (if (0 <=? i) && (i <? 0 + Z.max 0 dim) then g f i else f i).
  2:{ replace (i <? 0 + Z.max 0 dim) with (i <? Z.max 0 dim) by (f_equal; lia). destruct (0 <=? i) eqn:E; cbn [andb]; [|reflexivity].
      replace (i <? Z.max 0 dim) with (i <? dim) by lia. reflexivity. }
  apply K; clear K i.
  - intros i. replace ((0 <=? i) && (i <? 0)) with false by lia. reflexivity.
  - intros n f' Hn H i. unfold upd. destruct (Z.eqb_spec i n) as [->|Hne].
    + replace ((0 <=? n) && (n <? n + 1)) with true by lia. apply Hg. rewrite H. replace ((0 <=? n) && (n <? n)) with false by lia. reflexivity.
    + rewrite H. replace (i <? n + 1) with (i <? n) by lia. reflexivity.
Qed.

Lemma first_prime_cases l m f : (mg_first_prime l m f = f) \/ (In (mg_first_prime l m f) l /\ Z.rem m (mg_first_prime l m f) = 0).
Proof.
  induction l as [|q l IH]; cbn [mg_first_prime]; [auto|].
  destruct (Z.eqb_spec (Z.rem m q) 0); [right; split; [left; reflexivity|assumption]|].
  destruct IH as [IH|[IH1 IH2]]; [auto|right; split; [right; assumption|assumption]].
Qed.

(** The factors before neighbouring directions are looked at. *)
Definition base_factor (M : Z -> Z) (i : Z) : Z := mg_first_prime primes (M i) (M i).

Lemma primes_ge2 q : In q primes -> 2 <= q.
Proof.
  assert (H : forallb (fun q => 2 <=? q) primes = true) by reflexivity.
  rewrite forallb_forall in H. intros K. specialize (H q K). lia.
Qed.

Lemma base_factor_ok M i : 2 <= M i -> 2 <= base_factor M i /\ (base_factor M i | M i).
Proof.
  intros H. unfold base_factor. destruct (first_prime_cases primes (M i) (M i)) as [E|[E1 E2]].
  - rewrite E. split; [lia|apply Z.divide_refl].
  - apply primes_ge2 in E1. split; [assumption|]. apply Z.rem_divide; [lia|assumption].
Qed.

Lemma inner_other M i dim f k : k <> i -> fold_left (mg_avoid_inner M i) (zseq 0 dim) f k = f k.
Proof.
  intros Hk. generalize (zseq 0 dim). intros l. revert f. induction l as [|j l IH]; intros f; [reflexivity|].
  cbn [fold_left]. rewrite IH. unfold mg_avoid_inner. destruct (_ && _); [|reflexivity]. unfold upd. replace (k =? i) with false by lia. reflexivity.
Qed.
Lemma inner_self M i l f : fold_left (mg_avoid_inner M i) l f i = f i \/ fold_left (mg_avoid_inner M i) l f i = 1.
Proof.
  revert f. induction l as [|j l IH]; intros f; [auto|]. cbn [fold_left].
  destruct (IH (mg_avoid_inner M i f j)) as [E|E]; [|auto]. rewrite E. unfold mg_avoid_inner. destruct (_ && _); [|auto].
  right. unfold upd. rewrite Z.eqb_refl. reflexivity.
Qed.
Lemma inner_keep M i l f : (forall j, In j l -> j <> i -> Z.quot (M j) (f j) < M i) -> fold_left (mg_avoid_inner M i) l f i = f i.
Proof.
  induction l as [|j l IH]; intros H; [reflexivity|]. cbn [fold_left].
  replace (mg_avoid_inner M i f j) with f; [apply IH; intros; apply H; [right|]; assumption|].
  unfold mg_avoid_inner. destruct (Z.eqb_spec i j); [reflexivity|]. cbn [negb andb].
  specialize (H j ltac:(left; reflexivity) ltac:(lia)). replace (M i <=? Z.quot (M j) (f j)) with false by lia. reflexivity.
Qed.

Lemma max_index (dim : Z) (M : Z -> Z) : 1 <= dim ->
  exists m, 0 <= m < dim /\ (forall j, 0 <= j < dim -> M j <= M m) /\ (forall j, 0 <= j < m -> M j < M m).
Proof.
  intros H. replace dim with (Z.of_nat (Datatypes.S (Z.to_nat (dim - 1)))) by lia. generalize (Z.to_nat (dim - 1)) as n.
  induction n as [|n (m & A & B & C)].
  - exists 0. split; [lia|]. split; intros j Hj; [replace j with 0 by lia|]; lia.
  - destruct (Z_lt_le_dec (M m) (M (Z.of_nat (Datatypes.S n)))) as [L|L].
    + exists (Z.of_nat (Datatypes.S n)). split; [lia|]. split.
      * intros j Hj. destruct (Z.eq_dec j (Z.of_nat (Datatypes.S n))) as [->|]; [lia|]. specialize (B j ltac:(lia)). lia.
      * intros j Hj. specialize (B j ltac:(lia)). lia.
    + exists m. split; [lia|]. split; [|exact C].
      intros j Hj. destruct (Z.eq_dec j (Z.of_nat (Datatypes.S n))) as [->|]; [lia|]. apply B. lia.
Qed.

Lemma quot_drop a b : 1 <= a -> 2 <= b -> Z.quot a b < a.
Proof. intros. rewrite Z.quot_div_nonneg by lia. apply Z.div_lt; lia. Qed.

(** The nested loops over directions. *)
Lemma avoid_spec dim M f1 : 1 <= dim -> (forall i, 0 <= i < dim -> 2 <= M i) -> (forall i, 0 <= i < dim -> 2 <= f1 i) ->
  let f2 := fold_left (mg_avoid dim M) (zseq 0 dim) f1 in
  (forall i, 0 <= i < dim -> f2 i = f1 i \/ f2 i = 1) /\ (exists i, 0 <= i < dim /\ f2 i = f1 i) /\
  (forall i, ~ (0 <= i < dim) -> f2 i = f1 i).
Proof.
  intros Hd HM Hf f2. destruct (max_index dim M Hd) as (m & Hm & Hmax & Hfirst).
  pose proof (fold_zseq_inv _ (mg_avoid dim M)
    (fun n f => (forall i, 0 <= i < n -> f i = f1 i \/ f i = 1) /\ (forall i, ~ (0 <= i < n) -> f i = f1 i) /\ f m = f1 m) 0 dim f1) as K.
  replace (0 + Z.max 0 dim) with dim in K by lia.
  destruct K as (A & B & C).
  - split; [intros; lia|]. split; auto.
  - intros n f Hn (A & B & C). unfold mg_avoid. split; [|split].
    + intros i Hi. destruct (Z.eq_dec i n) as [->|Hne].
      * destruct (inner_self M n (zseq 0 dim) f) as [E|E]; [left; rewrite E; apply B; lia|right; exact E].
      * rewrite inner_other by assumption. apply A. lia.
    + intros i Hi. rewrite inner_other by lia. apply B. lia.
    + destruct (Z.eq_dec m n) as [E|Hne]; [|rewrite inner_other by assumption; exact C].
      subst n. rewrite inner_keep; [exact C|].
      intros j Hj Hjm. apply in_zseq in Hj. specialize (Hmax j ltac:(lia)). pose proof (HM j ltac:(lia)).
      destruct (Z_lt_le_dec j m) as [L|L].
      * specialize (Hfirst j ltac:(lia)). destruct (A j ltac:(lia)) as [E|E]; rewrite E.
        -- pose proof (quot_drop (M j) (f1 j) ltac:(lia) ltac:(apply Hf; lia)). lia.
        -- rewrite Z.quot_1_r. lia.
      * rewrite B by lia. pose proof (quot_drop (M j) (f1 j) ltac:(lia) ltac:(apply Hf; lia)). lia.
  - split; [exact A|]. split; [exists m; split; assumption|exact B].
Qed.

Lemma existsb_zseq_false g dim : existsb g (zseq 0 dim) = false -> forall i, 0 <= i < dim -> g i = false.
Proof.
  intros H i Hi. destruct (g i) eqn:E; [|reflexivity].
  assert (K : existsb g (zseq 0 dim) = true) by (apply existsb_exists; exists i; split; [apply in_zseq; lia|exact E]).
  congruence.
Qed.

Lemma coarsen_true dim M P f g : 1 <= dim -> (forall i, 0 <= i < dim -> 1 <= P i) -> coarsen_factor dim M P f = (true, g) ->
  (forall i, 0 <= i < dim -> P i < M i /\ 1 <= g i /\ (g i | M i)) /\ (exists i, 0 <= i < dim /\ 2 <= g i) /\
  (6 < M 0 \/ 6 < M 1 \/ 6 < M 2).
Proof.
  intros Hd HP E. unfold coarsen_factor in E.
  destruct (M 0 * M 1 * M 2 <=? 1) eqn:E1; [discriminate|].
  destruct ((M 0 <=? 2*3) && (M 1 <=? 2*3) && (M 2 <=? 2*3)) eqn:E2; [discriminate|].
  destruct (existsb _ _) eqn:E3; [discriminate|]. injection E as <-.
  pose proof (existsb_zseq_false _ _ E3) as H3. cbv beta in H3.
  assert (HM : forall i, 0 <= i < dim -> 2 <= M i) by (intros i Hi; specialize (H3 i Hi); specialize (HP i Hi); lia).
  set (f1 := fold_left (mg_cell_factor M) (zseq 0 dim) (fold_left (fun f i => upd f i (M i)) (zseq 0 dim) f)).
  assert (F1 : forall i, 0 <= i < dim -> f1 i = base_factor M i).
  { intros i Hi. unfold f1. rewrite (fold_upd_all dim (fun f i => mg_first_prime primes (M i) (f i))) by (intros ? ? ? ->; reflexivity).
    replace ((0 <=? i) && (i <? dim)) with true by lia.
    rewrite (fold_upd_all dim (fun _ i => M i)) by reflexivity. replace ((0 <=? i) && (i <? dim)) with true by lia. reflexivity. }
  assert (B1 : forall i, 0 <= i < dim -> 2 <= f1 i /\ (f1 i | M i)).
  { intros i Hi. rewrite F1 by exact Hi. apply base_factor_ok. apply HM. exact Hi. }
  destruct (avoid_spec dim M f1 Hd HM (fun i Hi => proj1 (B1 i Hi))) as (A & (m & Hm & Em) & _).
  split; [|split].
  - intros i Hi. specialize (H3 i Hi). destruct (B1 i Hi) as (B2 & B3). destruct (A i Hi) as [-> | ->]; split; try lia; (split; [lia|]);
      [assumption|apply Z.divide_1_l].
  - exists m. split; [exact Hm|]. rewrite Em. apply B1. exact Hm.
  - lia.
Qed.

Lemma coarsen_false dim M P f g : coarsen_factor dim M P f = (false, g) ->
  M 0 * M 1 * M 2 <= 1 \/ (M 0 <= 6 /\ M 1 <= 6 /\ M 2 <= 6) \/ exists i, 0 <= i < dim /\ M i <= P i.
Proof.
  intros E. unfold coarsen_factor in E.
  destruct (M 0 * M 1 * M 2 <=? 1) eqn:E1; [left; lia|].
  destruct ((M 0 <=? 2*3) && (M 1 <=? 2*3) && (M 2 <=? 2*3)) eqn:E2; [right; left; lia|].
  destruct (existsb _ _) eqn:E3; [|discriminate]. right; right. apply existsb_exists in E3. destruct E3 as (i & Hi & L).
  apply in_zseq in Hi. exists i. lia.
Qed.

(** The result depends only on the sizes, and is the same whatever the array held before. *)
Lemma avoid_ext dim M M' f f' : (forall i, 0 <= i < dim -> M i = M' i) -> (forall i, 0 <= i < dim -> f i = f' i) ->
  forall i, 0 <= i < dim -> fold_left (mg_avoid dim M) (zseq 0 dim) f i = fold_left (mg_avoid dim M') (zseq 0 dim) f' i.
Proof.
  intros HM Hf.
  assert (Inner : forall n, 0 <= n < dim -> forall l, (forall j, In j l -> 0 <= j < dim) -> forall f f', (forall i, 0 <= i < dim -> f i = f' i) ->
            forall i, 0 <= i < dim -> fold_left (mg_avoid_inner M n) l f i = fold_left (mg_avoid_inner M' n) l f' i).
  { intros n Hn l. induction l as [|j l IH]; intros Hl g g' Hg i Hi; [apply Hg; exact Hi|]. cbn [fold_left].
    apply IH; [intros; apply Hl; right; assumption| |exact Hi]. intros k Hk. unfold mg_avoid_inner.
    rewrite <- (HM n Hn), <- (HM j) by (apply Hl; left; reflexivity). rewrite <- (Hg j) by (apply Hl; left; reflexivity).
    destruct (_ && _); [|apply Hg; exact Hk]. unfold upd. destruct (k =? n); [reflexivity|]. apply Hg. exact Hk. }
  assert (Outer : forall l, (forall j, In j l -> 0 <= j < dim) -> forall f f', (forall i, 0 <= i < dim -> f i = f' i) ->
            forall i, 0 <= i < dim -> fold_left (mg_avoid dim M) l f i = fold_left (mg_avoid dim M') l f' i).
  { intros l. induction l as [|j l IH]; intros Hl g g' Hg i Hi; [apply Hg; exact Hi|]. cbn [fold_left].
    apply IH; [intros; apply Hl; right; assumption| |exact Hi].
    intros k Hk. unfold mg_avoid. apply Inner; try assumption; [apply Hl; left; reflexivity|]. intros z Hz. apply in_zseq in Hz. lia. }
  apply Outer; [|exact Hf]. intros j Hj. apply in_zseq in Hj. lia.
Qed.
Lemma coarsen_ext dim M M' P f f' : 0 <= dim <= 3 -> (forall i, 0 <= i < 3 -> M i = M' i) ->
  fst (coarsen_factor dim M P f) = fst (coarsen_factor dim M' P f') /\
  forall i, 0 <= i < dim -> snd (coarsen_factor dim M P f) i = snd (coarsen_factor dim M' P f') i.
Proof.
  intros Hd HM. unfold coarsen_factor. rewrite <- !HM by lia.
  assert (E0 : forall i, 0 <= i < dim -> fold_left (fun f i => upd f i (M i)) (zseq 0 dim) f i = fold_left (fun f i => upd f i (M' i)) (zseq 0 dim) f' i).
  { intros i Hi. rewrite (fold_upd_all dim (fun _ i => M i)), (fold_upd_all dim (fun _ i => M' i)) by reflexivity.
    replace ((0 <=? i) && (i <? dim)) with true by lia. apply HM. lia. }
  assert (E3 : existsb (fun i => M i <=? P i) (zseq 0 dim) = existsb (fun i => M' i <=? P i) (zseq 0 dim)).
  { assert (K : forall l, (forall i, In i l -> 0 <= i < dim) -> existsb (fun i => M i <=? P i) l = existsb (fun i => M' i <=? P i) l).
    { induction l as [|i l IH]; intros Hl; [reflexivity|]. cbn [existsb]. rewrite IH by (intros; apply Hl; right; assumption).
      rewrite HM by (specialize (Hl i ltac:(left; reflexivity)); lia). reflexivity. }
    apply K. intros i Hi. apply in_zseq in Hi. lia. }
  rewrite <- E3.
  destruct (_ <=? 1); [cbn [fst snd]; auto|]. destruct (_ && _); [cbn [fst snd]; auto|]. destruct (existsb _ _); [cbn [fst snd]; auto|].
  cbn [fst snd]. split; [reflexivity|]. apply avoid_ext; [intros; apply HM; lia|].
  intros i Hi. rewrite !(fold_upd_all dim (fun f i => mg_first_prime primes (M i) (f i))) by (intros ? ? ? ->; reflexivity).
  rewrite !(fold_upd_all dim (fun f i => mg_first_prime primes (M' i) (f i))) by (intros ? ? ? ->; reflexivity).
  replace ((0 <=? i) && (i <? dim)) with true by lia. rewrite E0 by exact Hi. rewrite HM by lia. reflexivity.
Qed.

Lemma cells_eq dim nodes wraps i : mg_cells dim nodes wraps i = if (0 <=? i) && (i <? dim) then intervals (wraps i) (nodes i) else nodes i.
Proof.
  pose proof (fold_zseq_inv _ (fun M i => if wraps i : bool then M else upd M i (M i - 1))
    (fun n M => forall i, M i = if (0 <=? i) && (i <? n) then intervals (wraps i) (nodes i) else nodes i) 0 dim nodes) as K.
  unfold mg_cells. rewrite K; clear K.
  - destruct (0 <=? i) eqn:E; cbn [andb]; [|reflexivity]. replace (i <? 0 + Z.max 0 dim) with (i <? dim) by lia. reflexivity.
  - intros k. replace ((0 <=? k) && (k <? 0)) with false by lia. reflexivity.
  - intros n M Hn H k. destruct (Z.eq_dec k n) as [->|Hne].
    + replace ((0 <=? n) && (n <? n + 1)) with true by lia. unfold intervals.
      destruct (wraps n); [|unfold upd; rewrite Z.eqb_refl]; rewrite H; replace ((0 <=? n) && (n <? n)) with false by lia; reflexivity.
    + replace (k <? n + 1) with (k <? n) by lia. rewrite <- H. destruct (wraps n); [reflexivity|]. unfold upd. replace (k =? n) with false by lia. reflexivity.
Qed.

Lemma level_shift k dim nodes P wraps : dmda_level (Datatypes.S k) dim nodes P wraps = dmda_level k dim (dmda_coarsen dim nodes P wraps) P wraps.
Proof. induction k as [|k IH]; [reflexivity|]. cbn [dmda_level] in *. rewrite IH. reflexivity. Qed.

Definition level_cells dim nodes P wraps (k : nat) : Z -> Z := mg_cells dim (dmda_level k dim nodes P wraps) wraps.

Lemma loop_spec dim P wraps : 1 <= dim <= 3 -> forall fuel nodes M f levels,
  (forall i, 0 <= i < 3 -> M i = mg_cells dim nodes wraps i) ->
  exists k, (k <= fuel)%nat /\ fst (coarsen_loop fuel dim P M f levels) = levels + Z.of_nat k /\
    (forall n, (n < k)%nat -> fst (coarsen_factor dim (level_cells dim nodes P wraps n) P (fun _ => 1)) = true) /\
    (k = fuel \/ fst (coarsen_factor dim (level_cells dim nodes P wraps k) P (fun _ => 1)) = false).
Proof.
  intros Hd. induction fuel as [|fuel IH]; intros nodes M f levels HM.
  - exists O. cbn [coarsen_loop]. destruct (coarsen_factor dim M P f) as [[|] g]; (split; [lia|]); (split; [cbn; lia|]); (split; [intros; lia|]); auto.
  - cbn [coarsen_loop].
    pose proof (coarsen_ext dim M (mg_cells dim nodes wraps) P f (fun _ => 1) ltac:(lia) HM) as (X1 & X2).
    destruct (coarsen_factor dim M P f) as [[|] g] eqn:E; cbn [fst snd] in X1, X2.
    + destruct (IH (dmda_coarsen dim nodes P wraps) (fold_left (fun M i => upd M i (Z.quot (M i) (g i))) (zseq 0 dim) M) g (levels+1)) as (k & A & B & C & D).
      { intros i Hi. rewrite (fold_upd_all dim (fun M i => Z.quot (M i) (g i))) by (intros ? ? ? ->; reflexivity).
        rewrite cells_eq. rewrite HM by exact Hi. rewrite cells_eq. unfold dmda_coarsen.
        destruct ((0 <=? i) && (i <? dim)) eqn:Ei; [|reflexivity].
        rewrite X2 by lia. unfold coarsen_factor_of, intervals, dmda_coarse_size. destruct (wraps i); [reflexivity|].
        lia. }
      exists (Datatypes.S k). split; [lia|]. split; [rewrite B; lia|]. split.
      * intros [|n] Hn.
        -- unfold level_cells. cbn [dmda_level]. symmetry. exact X1.
        -- unfold level_cells. rewrite level_shift. apply C. lia.
      * destruct D as [D|D]; [left; lia|right]. unfold level_cells. rewrite level_shift. exact D.
    + exists O. split; [lia|]. split; [cbn [fst]; lia|]. split; [intros; lia|]. right. symmetry. exact X1.
Qed.

Lemma count_pos : forall l (M : Z -> Z), (forall i, In i l -> 1 <= M i) -> 1 <= fold_right Z.mul 1 (map M l).
Proof. induction l as [|i l IH]; intros M H; cbn [map fold_right]; [lia|]. specialize (IH M ltac:(intros; apply H; right; assumption)). specialize (H i ltac:(left; reflexivity)). nia. Qed.
Lemma count_split : forall l (M f Mc : Z -> Z), (forall i, In i l -> M i = f i * Mc i) ->
  fold_right Z.mul 1 (map M l) = fold_right Z.mul 1 (map f l) * fold_right Z.mul 1 (map Mc l).
Proof. induction l as [|i l IH]; intros M f Mc H; cbn [map fold_right]; [lia|]. rewrite (IH M f Mc) by (intros; apply H; right; assumption). rewrite (H i) by (left; reflexivity). ring. Qed.
Lemma count_two : forall l (f : Z -> Z), (forall i, In i l -> 1 <= f i) -> (exists i, In i l /\ 2 <= f i) -> 2 <= fold_right Z.mul 1 (map f l).
Proof.
  induction l as [|a l IH]; intros f H (i & Hi & E); [destruct Hi|]. cbn [map fold_right].
  destruct Hi as [->|Hi].
  - pose proof (count_pos l f ltac:(intros; apply H; right; assumption)). nia.
  - specialize (IH f ltac:(intros; apply H; right; assumption) (ex_intro _ i (conj Hi E))). specialize (H a ltac:(left; reflexivity)). nia.
Qed.

(** A nested coarse grid has at most half as many cells. *)
Lemma nested_halves dim M Mc : nested dim M Mc -> 1 <= cell_count dim Mc /\ 2 * cell_count dim Mc <= cell_count dim M.
Proof.
  intros (f & A & i & Hi & Ei). unfold cell_count.
  assert (B : forall k, In k (zseq 0 dim) -> 0 <= k < dim) by (intros k Hk; apply in_zseq in Hk; lia).
  pose proof (count_pos (zseq 0 dim) Mc ltac:(intros k Hk; apply A; apply B; exact Hk)) as P1.
  split; [exact P1|].
  rewrite (count_split (zseq 0 dim) M f Mc) by (intros k Hk; apply A; apply B; exact Hk).
  pose proof (count_two (zseq 0 dim) f ltac:(intros k Hk; apply A; apply B; exact Hk) ltac:(exists i; split; [apply in_zseq; lia|exact Ei])). nia.
Qed.

(** One coarsening step: whenever CoarsenFactor answers yes, whatever was in the array before, every factor divides the
    number of cells of its direction and at least one direction is really coarsened; hence the number of cells at least
    halves. *)
Theorem C48_step :
  forall (dim : Z) (M P f g : Z -> Z), 1 <= dim <= 3 -> (forall i, 0 <= i < dim -> 1 <= P i) ->
  coarsen_factor dim M P f = (true, g) ->
  (forall i, 0 <= i < dim -> 1 <= g i /\ (g i | M i)) /\
  nested dim M (fun i => Z.quot (M i) (g i)) /\
  2 * cell_count dim (fun i => Z.quot (M i) (g i)) <= cell_count dim M.
Proof.
  intros dim M P f g Hd HP E. destruct (coarsen_true dim M P f g ltac:(lia) HP E) as (A & (m & Hm & Em) & _).
  assert (N : nested dim M (fun i => Z.quot (M i) (g i))).
  { exists g. split; [|exists m; split; assumption]. intros i Hi. destruct (A i Hi) as (A1 & A2 & (q & A3)). pose proof (HP i Hi).
    rewrite A3. rewrite Z.quot_mul by lia. split; [lia|]. split; [nia|lia]. }
  split; [intros i Hi; apply A; exact Hi|]. split; [exact N|]. apply nested_halves. exact N.
Qed.
Print Assumptions C48_step.

(** The hierarchy: the number of levels is at least 1, at most 64 and at most 1 + log2 of the number of cells; the grids
    that DMCoarsen and the hook produce are nested on all those levels; and coarsening stops only at level 64, when every
    direction has at most 6 cells, or when a direction has no more cells than processes. *)
Theorem C48_hierarchy :
  forall (dim : Z) (nodes P : Z -> Z) (wraps : Z -> bool), 1 <= dim <= 3 ->
  (forall i, 0 <= i < dim -> 1 <= P i /\ 1 <= nodes i) -> (forall i, dim <= i < 3 -> nodes i = 1) ->
  let L := coarsen_levels dim nodes P wraps in
  let cells := fun (k : nat) i => intervals (wraps i) (dmda_level k dim nodes P wraps i) in
  1 <= L <= 64 /\
  (forall k, Z.of_nat k < L - 1 -> nested dim (cells k) (cells (Datatypes.S k))) /\
  2 ^ (L - 1) <= Z.max 1 (cell_count dim (cells 0%nat)) /\
  (L = 64 \/ (forall i, 0 <= i < dim -> cells (Z.to_nat (L - 1)) i <= 6) \/
   exists i, 0 <= i < dim /\ cells (Z.to_nat (L - 1)) i <= P i).
Proof.
  intros dim nodes P wraps Hd HP HU L cells.
  destruct (loop_spec dim P wraps Hd 63 nodes (mg_cells dim nodes wraps) (fun _ => 1) 1 ltac:(reflexivity)) as (k & A & B & C & D).
  assert (EL : L = 1 + Z.of_nat k) by exact B.
  assert (LC : forall n i, 0 <= i < dim -> level_cells dim nodes P wraps n i = cells n i).
  { intros n i Hi. unfold level_cells, cells. rewrite cells_eq. replace ((0 <=? i) && (i <? dim)) with true by lia. reflexivity. }
  assert (LU : forall n i, dim <= i < 3 -> level_cells dim nodes P wraps n i = 1).
  { intros n i Hi. unfold level_cells. rewrite cells_eq. replace ((0 <=? i) && (i <? dim)) with false by lia.
    induction n as [|n IH]; cbn [dmda_level]; [apply HU; exact Hi|]. unfold dmda_coarsen. replace ((0 <=? i) && (i <? dim)) with false by lia. exact IH. }
  assert (NE : forall n, (n < k)%nat -> nested dim (cells n) (cells (Datatypes.S n))).
  { intros n Hn. specialize (C n Hn). destruct (coarsen_factor dim (level_cells dim nodes P wraps n) P (fun _ => 1)) as [go g] eqn:E. cbn [fst] in C. subst go.
    destruct (coarsen_true _ _ _ _ _ (proj1 Hd) (fun i Hi => proj1 (HP i Hi)) E) as (X & (m & Hm & Em) & _).
    exists g. split; [|exists m; split; assumption]. intros i Hi. destruct (X i Hi) as (X1 & X2 & (q & X3)).
    rewrite LC in X1, X3 by exact Hi. pose proof (proj1 (HP i Hi)).
    assert (EC : cells (Datatypes.S n) i = Z.quot (cells n i) (g i)).
    { unfold cells. cbn [dmda_level]. unfold dmda_coarsen at 1. replace ((0 <=? i) && (i <? dim)) with true by lia.
      unfold coarsen_factor_of. unfold level_cells in E. rewrite E. cbn [snd]. unfold dmda_coarse_size, intervals. destruct (wraps i); [reflexivity|lia]. }
    rewrite EC, X3. rewrite Z.quot_mul by lia. split; [lia|]. split; [nia|lia]. }
  split; [lia|]. split; [|split].
  - intros n Hn. apply NE. lia.
  - assert (G : forall n, (n <= k)%nat -> 2 ^ Z.of_nat n * (if (n =? 0)%nat then 1 else cell_count dim (cells n)) <= Z.max 1 (cell_count dim (cells 0%nat)) /\
                  ((0 < n)%nat -> 1 <= cell_count dim (cells n))).
    { induction n as [|n IH]; intros Hn; [cbn; lia|].
      destruct (IH ltac:(lia)) as (IH1 & IH2). destruct (nested_halves _ _ _ (NE n ltac:(lia))) as (N1 & N2).
      split; [|intros; exact N1]. cbn [Nat.eqb]. rewrite Nat2Z.inj_succ, Z.pow_succ_r by lia.
      destruct n as [|n]; [cbn; lia|]. cbn [Nat.eqb] in IH1. nia. }
    destruct (G k ltac:(lia)) as (G1 & G2). replace (L - 1) with (Z.of_nat k) by lia.
    destruct k as [|k]; [cbn; lia|]. cbn [Nat.eqb] in G1. specialize (G2 ltac:(lia)). nia.
  - replace (Z.to_nat (L - 1)) with k by lia.
    destruct D as [D|D]; [left; lia|right].
    assert (NN : forall i, 0 <= i < dim -> 0 <= cells k i).
    { intros i Hi. destruct k as [|k'].
      - unfold cells. cbn [dmda_level]. specialize (HP i Hi). unfold intervals. destruct (wraps i); lia.
      - destruct (NE k' ltac:(lia)) as (f & X & _). specialize (X i Hi). lia. }
    destruct (coarsen_factor dim (level_cells dim nodes P wraps k) P (fun _ => 1)) as [go g] eqn:E. cbn [fst] in D. subst go.
    apply coarsen_false in E.
    assert (V : forall i, 0 <= i < 3 -> 0 <= level_cells dim nodes P wraps k i).
    { intros i Hi. destruct (Z_lt_le_dec i dim); [rewrite LC by lia; apply NN; lia|rewrite LU by lia; lia]. }
    destruct E as [E|[E|(i & Hi & E)]].
    + pose proof (V 0 ltac:(lia)) as V0. pose proof (V 1 ltac:(lia)) as V1. pose proof (V 2 ltac:(lia)) as V2.
      assert (Z01 : (exists i, 0 <= i < dim /\ cells k i = 0) \/ (forall i, 0 <= i < dim -> cells k i <= 1)).
      { destruct (Z.eq_dec (level_cells dim nodes P wraps k 0) 0) as [Z0|Z0].
        { left. exists 0. split; [lia|]. rewrite <- LC by lia. exact Z0. }
        destruct (Z.eq_dec (level_cells dim nodes P wraps k 1) 0) as [Z1|Z1].
        { destruct (Z_lt_le_dec 1 dim); [left; exists 1; split; [lia|]; rewrite <- LC by lia; exact Z1|rewrite LU in Z1 by lia; lia]. }
        destruct (Z.eq_dec (level_cells dim nodes P wraps k 2) 0) as [Z2|Z2].
        { destruct (Z_lt_le_dec 2 dim); [left; exists 2; split; [lia|]; rewrite <- LC by lia; exact Z2|rewrite LU in Z2 by lia; lia]. }
        right. intros i Hi. rewrite <- LC by exact Hi.
        assert (level_cells dim nodes P wraps k 0 = 1 /\ level_cells dim nodes P wraps k 1 = 1 /\ level_cells dim nodes P wraps k 2 = 1) as (Q0 & Q1 & Q2).
        { revert V0 V1 V2 Z0 Z1 Z2 E. generalize (level_cells dim nodes P wraps k 0), (level_cells dim nodes P wraps k 1), (level_cells dim nodes P wraps k 2).
          clear. intros a b c. intros. assert (a = 1) by nia. subst. assert (b = 1) by nia. subst. lia. }
        assert (i = 0 \/ i = 1 \/ i = 2) as [-> | [-> | ->]] by lia; lia. }
      destruct Z01 as [(i & Hi & Zi)|Z1].
      * right. exists i. split; [exact Hi|]. specialize (HP i Hi). lia.
      * left. intros i Hi. specialize (Z1 i Hi). lia.
    + left. intros i Hi. rewrite <- LC by exact Hi. assert (i = 0 \/ i = 1 \/ i = 2) as [-> | [-> | ->]] by lia; lia.
    + right. exists i. split; [exact Hi|]. rewrite <- LC by exact Hi. exact E.
Qed.
Print Assumptions C48_hierarchy.

(** 65 x 48 points, the second direction periodic, on 2 x 2 processes: 64 x 48 cells, then 32 x 24, 16 x 12, 8 x 6, 4 x 3:
    five levels. *)
Example C48_example :
  let nodes := fun i => if i =? 0 then 65 else if i =? 1 then 48 else 1 in
  let P := fun i => if i <? 2 then 2 else 1 in
  let wraps := fun i => i =? 1 in
  coarsen_levels 2 nodes P wraps = 5 /\
  map (fun k => map (dmda_level k 2 nodes P wraps) [0;1]) [0;1;2;3;4]%nat = [[65;48]; [33;24]; [17;12]; [9;6]; [5;3]].
Proof. vm_compute. split; reflexivity. Qed.

(** Property C76: not every grid of the automatic hierarchy has a point for every process; a DMDA with fewer points
    than processes in a direction cannot be created, so setting up the preconditioner fails. *)
Theorem C76_point_per_process_refuted :
  exists (dim : Z) (nodes P : Z -> Z) (wraps : Z -> bool) (k : nat),
    1 <= dim <= 3 /\ (forall i, 0 <= i < 3 -> 1 <= P i <= nodes i) /\ Z.of_nat k < coarsen_levels dim nodes P wraps /\
    exists i, 0 <= i < dim /\ dmda_level k dim nodes P wraps i < P i.
Proof.
  exists 1, (fun i => if i =? 0 then 8 else 1), (fun i => if i =? 0 then 5 else 1), (fun _ => true), 1%nat.
  split; [lia|]. split.
  - intros i Hi. destruct (i =? 0); lia.
  - split; [vm_compute; reflexivity|]. exists 0. split; [lia|]. vm_compute. reflexivity.
Qed.
Print Assumptions C76_point_per_process_refuted.

(** What does hold: directions that are not distributed always keep a point (an interval, even). *)
Theorem C76_undistributed_partial :
  forall (dim : Z) (nodes P : Z -> Z) (wraps : Z -> bool), 1 <= dim <= 3 ->
  (forall i, 0 <= i < dim -> 1 <= P i <= nodes i) -> (forall i, dim <= i < 3 -> nodes i = 1) ->
  forall k i, Z.of_nat k < coarsen_levels dim nodes P wraps -> 0 <= i < dim -> P i = 1 ->
    P i <= dmda_level k dim nodes P wraps i.
Proof.
  intros dim nodes P wraps Hd HP HU k i Hk Hi E1.
  destruct (C48_hierarchy dim nodes P wraps Hd ltac:(intros j Hj; specialize (HP j Hj); lia) HU) as (_ & N & _).
  destruct k as [|k]; [apply HP; exact Hi|].
  destruct (N k ltac:(lia)) as (f & A & _). specialize (A i Hi). cbv beta in A. unfold intervals in A. destruct (wraps i); lia.
Qed.
Print Assumptions C76_undistributed_partial.
