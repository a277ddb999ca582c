(** Lagrange basis: product form, derivatives, interpolation. *)
From Coq Require Import ZArith List Bool Lia Reals Lra Psatz.
From Coq Require Import ZifyBool ZifyNat.
From Coquelicot Require Import Coquelicot.
From Verif Require Import Prelude RealOrd GridSpec GridProofs RuleModel RuleSpec RuleProofs LagModel BasProofs2.
Import ListNotations.
Open Scope R_scope.

(** ** Polynomials given by coefficients *)
Fixpoint padd2 (c d : list R) : list R :=
  match c, d with [], d => d | c, [] => c | a :: c', b :: d' => (a+b) :: padd2 c' d' end.
Definition pscale (s : R) (c : list R) : list R := map (Rmult s) c.
Lemma peval_padd2 c : forall d x, peval (padd2 c d) x = peval c x + peval d x.
Proof. induction c as [|a c IH]; intros [|b d] x; simpl; try ring. rewrite IH. ring. Qed.
Lemma peval_pscale s c x : peval (pscale s c) x = s * peval c x.
Proof. induction c as [|a c IH]; simpl; [ring|]. rewrite IH. ring. Qed.
Lemma length_padd2 c : forall d, length (padd2 c d) = Nat.max (length c) (length d).
Proof. induction c as [|a c IH]; intros [|b d]; simpl; auto. Qed.
Lemma length_pscale s c : length (pscale s c) = length c.
Proof. apply map_length. Qed.

(** Division by x - r. *)
Fixpoint sdiv (r : R) (c : list R) : list R :=
  match c with [] => [] | a :: c' => padd2 c' (pscale r (sdiv r c')) end.
Lemma sdiv_len r c : (length (sdiv r c) <= length c - 1)%nat.
Proof. induction c as [|a c IH]; simpl; auto. rewrite length_padd2, length_pscale. lia. Qed.
Lemma sdiv_spec r c x : peval c x - peval c r = (x - r) * peval (sdiv r c) x.
Proof.
  induction c as [|a c IH]; simpl; [ring|]. rewrite peval_padd2, peval_pscale.
  replace (a + x * peval c x - (a + r * peval c r)) with ((x - r) * peval c x + r * (peval c x - peval c r)) by ring. rewrite IH. ring.
Qed.
Lemma many_roots : forall roots c, NoDup roots -> (length c <= length roots)%nat -> (forall r, In r roots -> peval c r = 0) -> forall x, peval c x = 0.
Proof.
  induction roots as [|r l IH]; intros c Hn Hl H x.
  - destruct c; [reflexivity|simpl in Hl; lia].
  - inversion Hn; subst. pose proof (sdiv_spec r c x) as E. rewrite (H r (or_introl eq_refl)) in E.
    assert (Z : peval (sdiv r c) x = 0).
    { apply IH; auto.
      - pose proof (sdiv_len r c). simpl in Hl. lia.
      - intros s Hs. pose proof (sdiv_spec r c s) as E2. rewrite (H r (or_introl eq_refl)), (H s (or_intror Hs)) in E2.
        assert (s - r <> 0) by (intro; apply H2; replace r with s by lra; auto).
        replace (0 - 0) with 0 in E2 by ring. symmetry in E2. apply Rmult_integral in E2. tauto. }
    rewrite Z in E. lra.
Qed.

Definition sel (p m : Z) (skip : list Z) : list Z := filter (fun i => negb (existsb (Z.eqb i) (m :: skip))) (zseq 0 (p+1)).
Definition rem (j : Z) (S : list Z) : list Z := filter (fun i => negb (i =? j)%Z) S.

Lemma filter_filter {A} (f g : A -> bool) l : filter f (filter g l) = filter (fun x => g x && f x) l.
Proof. induction l as [|a l IH]; simpl; auto. destruct (g a); simpl; rewrite IH; auto. Qed.
Lemma rem_sel p m skip j : rem j (sel p m skip) = sel p m (skip ++ [j]).
Proof.
  unfold rem, sel. rewrite filter_filter. apply filter_ext. intros i. rewrite <- negb_orb. f_equal.
  rewrite app_comm_cons, existsb_app. f_equal. simpl. rewrite orb_false_r. auto.
Qed.
Lemma rem_notin j S : ~ In j S -> rem j S = S.
Proof.
  intros H. unfold rem. induction S as [|a S IH]; simpl; auto. destruct (a =? j)%Z eqn:E; simpl.
  - exfalso. apply H. left. lia.
  - rewrite IH; auto. intro; apply H; right; auto.
Qed.

Section Lag.
  Variables (X : Z -> R) (m : Z).
  Fixpoint PP (S : list Z) (x : R) : R := match S with [] => 1 | i :: S' => (x - X i) / (X m - X i) * PP S' x end.
  Fixpoint DD (k : nat) (S : list Z) (x : R) : R :=
    match k with
    | O => PP S x
    | S k' => rsum (fun j => DD k' (rem j S) x / (X m - X j)) S
    end.

  Lemma lag_prod_PP xx p skip : lag_prod xx p X m skip = PP (sel p m skip) xx.
  Proof.
    unfold lag_prod, sel. transitivity (1 * PP (filter (fun i => negb (existsb (Z.eqb i) (m :: skip))) (zseq 0 (p+1))) xx); [|ring].
    generalize 1 as z. induction (zseq 0 (p+1)) as [|i l IH]; intros z; cbn [fold_left filter]; [simpl; ring|].
    destruct (existsb (Z.eqb i) (m :: skip)); cbn [negb].
    - apply IH.
    - rewrite IH. cbn [PP]. unfold Rdiv. ring.
  Qed.
  Lemma lag_sum_DD k xx p skip term : (forall s, term s = DD k (sel p m s) xx) ->
    lag_sum p X m skip term = DD (S k) (sel p m skip) xx.
  Proof.
    intros H. cbn [DD]. transitivity (rsum (fun j => term (skip ++ [j]) / (X m - X j)) (sel p m skip)).
    - assert (G : forall l z, fold_left (fun s j => if existsb (Z.eqb j) (m :: skip) then s else s + term (skip ++ [j]) / (X m - X j)) l z =
         z + rsum (fun j => term (skip ++ [j]) / (X m - X j)) (filter (fun i => negb (existsb (Z.eqb i) (m :: skip))) l)).
      { induction l as [|i l IH]; intros z; cbn [fold_left filter]; [unfold rsum; simpl; ring|].
        destruct (existsb (Z.eqb i) (m :: skip)); cbn [negb].
        - apply IH.
        - rewrite IH, rsum_cons. ring. }
      unfold lag_sum, sel. rewrite G. ring.
    - apply rsum_ext. intros j _. rewrite H, rem_sel. auto.
  Qed.

  Lemma derive_cmul (c a : R) (f : R -> R) x l : is_derive f x l -> is_derive (fun v => (v - a) / c * f v) x (f x / c + (x - a) / c * l).
  Proof.
    intros H. apply (is_derive_ext (fun v => / c * ((v - a) * f v))); [intros; Rgoal; unfold Rdiv; ring|].
    replace (f x / c + (x - a) / c * l) with (/ c * (1 * f x + (x - a) * l)) by (unfold Rdiv; ring).
    apply (is_derive_scal (fun v => (v - a) * f v)). apply (is_derive_mult (fun v => v - a) f); auto; [|intros; apply Rmult_comm].
    auto_derive; auto.
  Qed.
  Lemma PP_derive S x : NoDup S -> is_derive (PP S) x (DD 1 S x).
  Proof.
    induction S as [|i S IH]; intros HN.
    - cbn [DD]. change (rsum _ []) with 0. apply (is_derive_ext (fun _ => 1)); [reflexivity|]. apply (is_derive_const 1).
    - inversion HN; subst. specialize (IH H2).
      apply (is_derive_ext (fun v => (v - X i) / (X m - X i) * PP S v)); [reflexivity|].
      replace (DD 1 (i :: S) x) with (PP S x / (X m - X i) + (x - X i) / (X m - X i) * DD 1 S x); [apply derive_cmul; auto|].
      cbn [DD]. rewrite rsum_cons. f_equal.
      + f_equal. unfold rem. cbn [filter]. rewrite Z.eqb_refl. cbn [negb]. fold (rem i S). rewrite rem_notin by auto. auto.
      + rewrite <- rsum_scal. apply rsum_ext. intros j Hj. unfold rem. cbn [filter].
        replace (i =? j)%Z with false by (symmetry; apply Z.eqb_neq; intro; subst; auto). cbn [negb PP]. unfold Rdiv. ring.
  Qed.
  Lemma NoDup_rem j S : NoDup S -> NoDup (rem j S).
  Proof. apply NoDup_filter. Qed.
  Lemma DD_derive k : forall S x, NoDup S -> is_derive (DD k S) x (DD (Datatypes.S k) S x).
  Proof.
    induction k as [|k IH]; intros S x HN; [apply PP_derive; auto|].
    apply (is_derive_rsum (fun j v => DD k (rem j S) v / (X m - X j)) (fun j v => DD (Datatypes.S k) (rem j S) v / (X m - X j))).
    intros j _. apply (is_derive_ext (fun v => / (X m - X j) * DD k (rem j S) v)); [intros; Rgoal; unfold Rdiv; ring|].
    unfold Rdiv. rewrite (Rmult_comm (DD _ _ _)). apply (is_derive_scal (DD k (rem j S))). apply IH. apply NoDup_rem; auto.
  Qed.
  Lemma DD_derive_n k S x : NoDup S -> is_derive_n (PP S) k x (DD k S x).
  Proof.
    intros HN. revert x. induction k as [|k IH]; intros x; [reflexivity|]. cbn [is_derive_n].
    apply (is_derive_ext (DD k S)); [intros; symmetry; apply is_derive_n_unique, IH|]. apply DD_derive; auto.
  Qed.
  Lemma length_rem j S : NoDup S -> In j S -> length (rem j S) = (length S - 1)%nat.
  Proof using.
    clear X m. induction S as [|a S IH]; intros HN HI; [destruct HI|]. inversion HN; subst. unfold rem. cbn [filter]. destruct (a =? j)%Z eqn:E; cbn [negb].
    - assert (a = j) by lia. subst a. fold (rem j S). rewrite rem_notin by auto. simpl. lia.
    - fold (rem j S). simpl. destruct HI as [->|HI]; [lia|]. rewrite IH by auto. assert (length S <> 0%nat) by (destruct S; [destruct HI|discriminate]). lia.
  Qed.
  Lemma DD_zero k : forall S x, NoDup S -> (length S < k)%nat -> DD k S x = 0.
  Proof.
    induction k as [|k IH]; intros S x HN HL; [lia|]. cbn [DD]. apply rsum_zero. intros j Hj.
    rewrite IH; [unfold Rdiv; ring|apply NoDup_rem; auto|]. rewrite length_rem by auto. assert (length S <> 0%nat) by (destruct S; [destruct Hj|discriminate]). lia.
  Qed.
  Lemma PP_poly S : exists c, length c = Datatypes.S (length S) /\ forall x, PP S x = peval c x.
  Proof.
    induction S as [|i S (c & L & H)]; [exists [1]; split; auto; intros; simpl; ring|].
    exists (pscale (/ (X m - X i)) (padd2 (0 :: c) (pscale (- X i) c))). split.
    - rewrite length_pscale, length_padd2, length_pscale. cbn [length]. lia.
    - intros x. rewrite peval_pscale, peval_padd2, peval_pscale. cbn [PP peval]. rewrite H. unfold Rdiv. ring.
  Qed.
  Lemma PP_self S : (forall i, In i S -> X i <> X m) -> PP S (X m) = 1.
  Proof.
    induction S as [|i S IH]; intros H; auto. cbn [PP]. rewrite IH by (intros; apply H; right; auto). field.
    pose proof (H i (or_introl eq_refl)). lra.
  Qed.
  Lemma PP_other S j : In j S -> PP S (X j) = 0.
  Proof. induction S as [|i S IH]; intros H; [destruct H|]. cbn [PP]. destruct H as [->|H]; [unfold Rdiv; ring|]. rewrite IH by auto. ring. Qed.
End Lag.

Lemma In_sel p m skip i : In i (sel p m skip) <-> (0 <= i <= p)%Z /\ i <> m /\ ~ In i skip.
Proof.
  unfold sel. rewrite filter_In, in_zseq. cbn [existsb]. rewrite negb_orb, andb_true_iff, !negb_true_iff, Z.eqb_neq.
  assert (E : existsb (Z.eqb i) skip = false <-> ~ In i skip).
  { split.
    - intros H HI. assert (T : existsb (Z.eqb i) skip = true) by (apply existsb_exists; exists i; split; auto; apply Z.eqb_refl). congruence.
    - intros H. destruct (existsb (Z.eqb i) skip) eqn:E; auto. apply existsb_exists in E. destruct E as (y & Hy & E). apply Z.eqb_eq in E. subst. tauto. }
  rewrite E. intuition lia.
Qed.
Lemma NoDup_sel p m skip : NoDup (sel p m skip).
Proof. apply NoDup_filter, NoDup_zseq. Qed.
Lemma length_sel p m : (0 <= m <= p)%Z -> length (sel p m []) = Z.to_nat p.
Proof.
  intros H. assert (L : length (rem m (zseq 0 (p+1))) = (length (zseq 0 (p+1)) - 1)%nat).
  { apply length_rem; [apply NoDup_zseq|apply in_zseq; lia]. }
  rewrite length_zseq in L. transitivity (length (rem m (zseq 0 (p+1)))); [|lia]. unfold sel, rem. f_equal. apply filter_ext.
  intros i. simpl. rewrite orb_false_r. auto.
Qed.

Section Basis.
  Variables (p : Z) (X : Z -> R).
  Hypothesis Hp : (0 <= p)%Z.
  Variable B0 : Z -> Z -> R.
  Let L (xx : R) (d : Z) := lagrange_ders xx p X d B0.

  Lemma row xx d k m : (0 <= k <= 3)%Z -> (k <= d)%Z -> (0 <= m <= p)%Z -> L xx d k m = DD X m (Z.to_nat k) (sel p m []) xx.
  Proof.
    intros Hk Hd Hm. unfold L, lagrange_ders. replace ((0 <=? m)%Z && (m <=? p)%Z) with true by lia.
    assert (P : forall s, lag_prod xx p X m s = DD X m 0 (sel p m s) xx) by (intros; apply lag_prod_PP).
    assert (S1 : forall s, lag_sum p X m s (fun s => lag_prod xx p X m s) = DD X m 1 (sel p m s) xx) by (intros; apply lag_sum_DD; auto).
    assert (S2 : forall s, lag_sum p X m s (fun s => lag_sum p X m s (fun s => lag_prod xx p X m s)) = DD X m 2 (sel p m s) xx) by (intros; apply lag_sum_DD; auto).
    assert (S3 : forall s, lag_sum p X m s (fun s => lag_sum p X m s (fun s => lag_sum p X m s (fun s => lag_prod xx p X m s))) = DD X m 3 (sel p m s) xx) by (intros; apply lag_sum_DD; auto).
    assert (C : (k = 0 \/ k = 1 \/ k = 2 \/ k = 3)%Z) by lia.
    destruct C as [-> | [-> | [-> | ->]]].
    - change (0 =? 0)%Z with true. cbn iota. apply P.
    - change (1 =? 0)%Z with false. change (1 =? 1)%Z with true. replace (1 <=? d)%Z with true by lia. cbn [andb]. apply S1.
    - change (2 =? 0)%Z with false. change (2 =? 1)%Z with false. change (2 =? 2)%Z with true. replace (2 <=? d)%Z with true by lia. cbn [andb]. apply S2.
    - change (3 =? 0)%Z with false. change (3 =? 1)%Z with false. change (3 =? 2)%Z with false. change (3 =? 3)%Z with true. replace (3 <=? d)%Z with true by lia. cbn [andb]. apply S3.
  Qed.

  Hypothesis Hd : forall i j, (0 <= i <= p)%Z -> (0 <= j <= p)%Z -> i <> j -> X i <> X j.

  Lemma delta d m j : (0 <= d)%Z -> (0 <= m <= p)%Z -> (0 <= j <= p)%Z -> L (X j) d 0 m = if (j =? m)%Z then 1 else 0.
  Proof.
    intros H0 Hm Hj. rewrite row by lia. change (Z.to_nat 0) with 0%nat. cbn [DD]. destruct (j =? m)%Z eqn:E.
    - assert (j = m) by lia. subst j. apply PP_self. intros i Hi. apply In_sel in Hi. destruct Hi as (A & N & _). apply Hd; auto; lia.
    - apply PP_other. apply In_sel. split; [lia|]. split; [lia|]. intros [].
  Qed.
  Lemma reproduces d c xx : (0 <= d)%Z -> (length c <= Z.to_nat (p+1))%nat ->
    rsum (fun m => peval c (X m) * L xx d 0 m) (zseq 0 (p+1)) = peval c xx.
  Proof.
    intros H0 Hc.
    assert (G : forall l, (forall i, In i l -> (0 <= i <= p)%Z) -> exists e, (length e <= Z.to_nat (p+1))%nat /\
       forall x, rsum (fun m => peval c (X m) * L x d 0 m) l = peval e x).
    { induction l as [|m l IH]; intros Hl; [exists []; split; [simpl; lia|intros; reflexivity]|].
      destruct IH as (e & Le & He); [intros; apply Hl; right; auto|].
      destruct (PP_poly X m (sel p m [])) as (q & Lq & Hq). pose proof (Hl m (or_introl eq_refl)).
      exists (padd2 (pscale (peval c (X m)) q) e). split.
      - rewrite length_padd2, length_pscale, Lq, length_sel by auto. lia.
      - intros x. rewrite rsum_cons, peval_padd2, peval_pscale, He, row by lia. change (Z.to_nat 0) with 0%nat. cbn [DD]. rewrite Hq. auto. }
    destruct (G (zseq 0 (p+1))) as (e & Le & He); [intros i Hi; apply in_zseq in Hi; lia|]. rewrite He.
    enough (E : peval (padd2 e (pscale (-1) c)) xx = 0) by (rewrite peval_padd2, peval_pscale in E; lra).
    apply (many_roots (map X (zseq 0 (p+1)))).
    - assert (ND : forall l, NoDup l -> (forall i, In i l -> (0 <= i <= p)%Z) -> NoDup (map X l)).
      { induction l as [|a l IH]; intros HN Hl; simpl; [constructor|]. inversion HN; subst. constructor.
        - rewrite in_map_iff. intros (b & E & Hb). apply (Hd b a); auto; [apply Hl; right; auto|apply Hl; left; auto|intro; subst; auto].
        - apply IH; auto. intros; apply Hl; right; auto. }
      apply ND; [apply NoDup_zseq|]. intros i Hi; apply in_zseq in Hi; lia.
    - rewrite length_padd2, length_pscale, map_length, length_zseq. lia.
    - intros r Hr. apply in_map_iff in Hr. destruct Hr as (j & <- & Hj). apply in_zseq in Hj.
      rewrite peval_padd2, peval_pscale, <- He.
      rewrite (rsum_single _ _ _ j (NoDup_zseq 0 (p+1))); [|apply in_zseq; lia|].
      + rewrite delta by lia. rewrite Z.eqb_refl. ring.
      + intros i Hi Hij. apply in_zseq in Hi. rewrite delta by lia. replace (j =? i)%Z with false by lia. ring.
  Qed.
End Basis.

(** ** The Gauss-Lobatto nodes are distinct *)
Definition nodesZ (q : Z) : list Z := match lobatto_nodes (fun z => z) Z.opp q with Some l => l | None => [] end.
Fixpoint gaps (l : list Z) : bool :=
  match l with a :: l' => forallb (fun b => (a + 10^34 <=? b)%Z && (Z.abs a <=? 10^36)%Z && (Z.abs b <=? 10^36)%Z) l' && gaps l' | [] => true end.
Lemma nodes_near lit q l : (forall z, Rabs (lit z - dec z) <= / 2^53 * Rabs (dec z)) -> lobatto_nodes lit Ropp q = Some l ->
  Forall2 (fun x z => Rabs (x - dec z) <= / 2^53 * Rabs (dec z)) l (nodesZ q) /\ gaps (nodesZ q) = true /\ length l = Z.to_nat q /\ (2 <= q <= 10)%Z.
Proof.
  intros HL H.
  assert (P : forall z, Rabs (lit z - dec z) <= / 2^53 * Rabs (dec z)) by auto.
  assert (Ng : forall x z, Rabs (x - dec z) <= / 2^53 * Rabs (dec z) -> Rabs (- x - dec (- z)) <= / 2^53 * Rabs (dec (-z))).
  { intros x z Hx. assert (E : dec (-z) = - dec z) by (unfold dec; rewrite opp_IZR; unfold Rdiv; ring).
    rewrite E. replace (- x - - dec z) with (- (x - dec z)) by ring. rewrite !Rabs_Ropp. auto. }
  assert (C : (q = 2 \/ q = 3 \/ q = 4 \/ q = 5 \/ q = 6 \/ q = 7 \/ q = 8 \/ q = 9 \/ q = 10)%Z).
  { destruct q as [|q|q]; try discriminate. do 4 (destruct q as [q|q|]; try discriminate; auto 10). }
  repeat (destruct C as [-> | C]; [injection H as <-; split; [repeat (apply Forall2_cons; [auto|]); apply Forall2_nil|split; [reflexivity|split; [reflexivity|lia]]]|]).
  subst q. injection H as <-; split; [repeat (apply Forall2_cons; [auto|]); apply Forall2_nil|split; [reflexivity|split; [reflexivity|lia]]].
Qed.
Lemma gaps_nth l : gaps l = true -> forall i j, (i < j)%nat -> (j < length l)%nat ->
  (nth i l 0 + 10^34 <= nth j l 0)%Z /\ (Z.abs (nth i l 0) <= 10^36)%Z /\ (Z.abs (nth j l 0) <= 10^36)%Z.
Proof.
  induction l as [|a l IH]; intros H i j Hij Hj; [simpl in Hj; lia|]. cbn [gaps] in H. apply andb_true_iff in H. destruct H as [H1 H2].
  destruct i as [|i], j as [|j]; try lia; cbn [nth].
  - rewrite forallb_forall in H1. specialize (H1 (nth j l 0%Z) ltac:(apply nth_In; simpl in Hj; lia)). lia.
  - apply IH; auto; try lia. simpl in Hj. lia.
Qed.
Lemma Forall2_nth' {A B} (P : A -> B -> Prop) l l' a b i : Forall2 P l l' -> (i < length l)%nat -> P (nth i l a) (nth i l' b).
Proof. intros H. revert i. induction H; intros [|i] Hi; simpl in *; try lia; auto. apply IHForall2. lia. Qed.
Lemma nodes_increasing lit q l : (forall z, Rabs (lit z - dec z) <= / 2^53 * Rabs (dec z)) -> lobatto_nodes lit Ropp q = Some l ->
  forall i j, (i < j)%nat -> (j < length l)%nat -> nth i l 0 < nth j l 0.
Proof.
  intros HL H i j Hij Hj. destruct (nodes_near lit q l HL H) as (N & G & L & _). pose proof (Forall2_len _ _ _ N) as LL.
  destruct (gaps_nth _ G i j Hij ltac:(lia)) as (G1 & G2 & G3).
  pose proof (Forall2_nth' _ _ _ 0 0%Z i N ltac:(lia)) as Ni. pose proof (Forall2_nth' _ _ _ 0 0%Z j N Hj) as Nj. cbv beta in Ni, Nj.
  set (zi := nth i (nodesZ q) 0%Z) in *. set (zj := nth j (nodesZ q) 0%Z) in *.
  pose proof (RuleProofs.dec_bound zi G2) as Di. pose proof (RuleProofs.dec_bound zj G3) as Dj.
  assert (D : dec zi + / 100 <= dec zj).
  { pose proof RuleProofs.S36_pos as P. unfold dec. replace (/100) with (IZR (10^34) / IZR S36).
    - unfold Rdiv. rewrite <- Rmult_plus_distr_r, <- plus_IZR. apply Rmult_le_compat_r; [left; apply Rinv_0_lt_compat; auto|]. apply IZR_le. auto.
    - apply Rmult_eq_reg_r with (IZR S36); [|lra]. unfold Rdiv. rewrite Rmult_assoc, Rinv_l by lra. 
      replace (IZR S36) with (100 * IZR (10^34)); [field|]. rewrite <- mult_IZR. reflexivity. }
  assert (E : / 2^53 <= / 1000) by (apply Rinv_le_contravar; [lra|]; replace 1000 with (IZR 1000) by reflexivity; simpl; lra).
  assert (E0 : 0 < / 2^53) by (apply Rinv_0_lt_compat; lra).
  assert (Ai : Rabs (nth i l 0 - dec zi) <= / 1000) by (pose proof (Rabs_pos (dec zi)); nra).
  assert (Aj : Rabs (nth j l 0 - dec zj) <= / 1000) by (pose proof (Rabs_pos (dec zj)); nra).
  apply Rabs_le_between in Ai. apply Rabs_le_between in Aj. lra.
Qed.
