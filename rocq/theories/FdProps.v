(** Property theorems about finite difference Jacobians: C47, C75. *)
From Coq Require Import ZArith List Bool Lia Reals Lra.
From Coq Require Import ZifyBool ZifyNat.
From Coquelicot Require Import Coquelicot.
From Verif Require Import Prelude AxisInitModel AxisInitProofs GridSpec GridProofs FdModel FdSpec.
Import ListNotations.
Open Scope Z_scope.

Lemma delta_wp_pos sq N U : (0 < sq)%R -> (0 < delta_wp sq N U)%R.
Proof.
  intros H. unfold delta_wp. apply Rmult_lt_0_compat; [assumption|]. apply sqrt_lt_R0.
  apply Rplus_lt_le_0_compat; [lra|]. apply sqrt_pos.
Qed.

(** The step is sqrteps * sqrt(1 + |U|). *)
Lemma delta_wp_eq sq N U : delta_wp sq N U = wp_step sq N U.
Proof.
  unfold delta_wp, wp_step. do 4 f_equal.
  assert (H : forall l x, fold_left (fun s i => (s + U i * U i)%R) l x = (x + rsum (fun i => U i * U i)%R l)%R).
  { induction l as [|a l IH]; intros x; cbn [fold_left].
    - unfold rsum; cbn; lra.
    - rewrite IH. unfold rsum. cbn [map fold_right]. lra. }
  rewrite H. lra.
Qed.

Lemma rsum_bump K X N j d : 0 <= j < N ->
  rsum (fun k => (K k * bump X j d k)%R) (zseq 0 N) = (rsum (fun k => K k * X k)%R (zseq 0 N) + K j * d)%R.
Proof.
  intros Hj. replace N with (j + (1 + (N - j - 1))) by lia. rewrite !zseq_app by lia. rewrite !rsum_app.
  rewrite (rsum_ext _ (fun k => (K k * bump X j d k)%R) (fun k => (K k * X k)%R) (zseq 0 j)).
  2:{ intros k Hk. apply in_zseq in Hk. unfold bump. replace (k =? j) with false by lia. reflexivity. }
  rewrite (rsum_ext _ (fun k => (K k * bump X j d k)%R) (fun k => (K k * X k)%R) (zseq (0 + j + 1) (N - j - 1))).
  2:{ intros k Hk. apply in_zseq in Hk. unfold bump. replace (k =? j) with false by lia. reflexivity. }
  replace (zseq (0 + j) 1) with [j] by (rewrite (zseq_cons (0+j) 1), zseq_nil by lia; f_equal; lia).
  unfold rsum at 2 5. cbn [map fold_right]. unfold bump. rewrite Z.eqb_refl. lra.
Qed.

Lemma Forall2_len A B (P : A -> B -> Prop) l m : Forall2 P l m -> length l = length m.
Proof. induction 1; cbn; congruence. Qed.

Lemma ptw_trans (l m a : list (Z -> R)) :
  Forall2 (fun X Y => forall k, X k = Y k) l m -> Forall2 (fun X Y => forall k, X k = Y k) m a -> Forall2 (fun X Y => forall k, X k = Y k) l a.
Proof.
  intros H. revert a. induction H as [|X Y l m E H IH]; intros a K; inversion K; subst; constructor.
  - intros k. rewrite E. auto.
  - apply IH. assumption.
Qed.

Section Loop.
  Variables M N : Z.
  Hypothesis HM : 0 <= M.
  Variable Fun : residual.
  Variable F : Z -> R.
  Variable h : R.
  (** The value the residual gives at arguments equal to [args], whatever the output array held. *)
  Variable Res : list (Z -> R) -> Z -> R.
  Hypothesis HF : forall args args' G i, Forall2 (same N) args args' -> 0 <= i < M -> Fun args G i = Res args' i.

  Definition bumps (factors : list R) (args : list (Z -> R)) (j : Z) : list (Z -> R) :=
    map (fun p => bump (fst p) j (h * snd p)%R) (combine args factors).

  Lemma col_write (J : Z -> R) (G : Z -> R) j : 0 <= j < N ->
    let J' := fold_left (fun J i => upd J (i*N + j) ((G i - F i) / h)%R) (zseq 0 M) J in
    (forall i, 0 <= i < M -> J' (i*N + j) = ((G i - F i)/h)%R) /\
    (forall x, (forall i, 0 <= i < M -> x <> i*N + j) -> J' x = J x).
  Proof.
    intros Hj J'.
    pose proof (fold_zseq_inv _ (fun J i => upd J (i*N + j) ((G i - F i) / h)%R)
      (fun n J1 => (forall i, 0 <= i < n -> J1 (i*N+j) = ((G i - F i)/h)%R) /\
                   (forall x, (forall i, 0 <= i < n -> x <> i*N+j) -> J1 x = J x)) 0 M J) as K.
    replace (0 + Z.max 0 M) with M in K by lia. apply K; clear K.
    - split; [intros; lia|auto].
    - intros n J1 Hn (A & B). split.
      + intros i Hi. unfold upd. destruct (Z.eqb_spec (i*N+j) (n*N+j)) as [E|E].
        * assert (i = n) by nia. subst. reflexivity.
        * apply A. assert (i <> n) by (intros ->; lia). lia.
      + intros x Hx. unfold upd. destruct (Z.eqb_spec x (n*N+j)) as [E|E]; [exfalso; apply (Hx n); [lia|assumption]|].
        apply B. intros i Hi. apply Hx. lia.
  Qed.

  Lemma combine_back : forall (args : list (Z -> R)) (factors : list R) j, length args = length factors ->
    Forall2 (fun X Y => forall k, X k = Y k)
      (map (fun p => let '(X, x) := p in upd X j x)
         (combine (map (fun p => let '(X, c, x) := p in upd X j (x + h * c)%R) (combine (combine args factors) (map (fun X : Z -> R => X j) args)))
                  (map (fun X : Z -> R => X j) args))) args.
  Proof.
    induction args as [|X args IH]; intros [|c factors] j HL; try discriminate; cbn [combine map]; constructor.
    - intros k. unfold upd. destruct (Z.eqb_spec k j); congruence.
    - apply IH. cbn in HL. lia.
  Qed.
  Lemma combine_pert : forall (args args0 : list (Z -> R)) (factors : list R) j, length args = length factors ->
    Forall2 (fun X Y => forall k, X k = Y k) args args0 ->
    Forall2 (same N) (map (fun p => let '(X, c, x) := p in upd X j (x + h * c)%R) (combine (combine args factors) (map (fun X : Z -> R => X j) args)))
      (bumps factors args0 j).
  Proof.
    induction args as [|X args IH]; intros args0 [|c factors] j HL HA; try discriminate; inversion HA; subst; cbn [combine map bumps]; constructor.
    - intros k Hk. cbn [fst snd]. unfold upd, bump. destruct (Z.eqb_spec k j) as [->|]; rewrite H1; reflexivity.
    - apply IH; [cbn in HL; lia|assumption].
  Qed.

  Lemma fd_loop_spec factors args G0 J0 : length args = length factors -> 0 <= N ->
    let st := fd_loop M N Fun F h factors args G0 J0 in
    Forall2 (fun X Y => forall k, X k = Y k) (fd_args st) args /\
    (forall i j, 0 <= i < M -> 0 <= j < N -> fd_J st (i*N + j) = ((Res (bumps factors args j) i - F i) / h)%R) /\
    (forall x, x < 0 \/ M*N <= x -> fd_J st x = J0 x).
  Proof.
    intros HL HN st.
    pose proof (fold_zseq_inv _ (fd_body M N Fun F h factors)
      (fun n st => Forall2 (fun X Y => forall k, X k = Y k) (fd_args st) args /\
         (forall i j, 0 <= i < M -> 0 <= j < n -> fd_J st (i*N + j) = ((Res (bumps factors args j) i - F i) / h)%R) /\
         (forall x, x < 0 \/ M*N <= x -> fd_J st x = J0 x)) 0 N (mk_fd args G0 J0)) as K.
    replace (0 + Z.max 0 N) with N in K by lia. apply K; clear K st.
    - cbn [fd_args fd_J]. split; [|split; [intros; lia|auto]]. clear. induction args; constructor; auto.
    - intros n st Hn (A & B & C).
      assert (HL' : length (fd_args st) = length factors) by (rewrite <- HL; eapply Forall2_len; eauto).
      unfold fd_body. cbn [fd_args fd_J].
      set (pert := map (fun p => let '(X, c, x) := p in upd X n (x + h * c)%R) (combine (combine (fd_args st) factors) (map (fun X : Z -> R => X n) (fd_args st)))).
      pose proof (combine_pert (fd_args st) args factors n HL' A) as HP. fold pert in HP.
      destruct (col_write (fd_J st) (Fun pert (fd_G st)) n ltac:(lia)) as (W1 & W2).
      split; [|split].
      + pose proof (combine_back (fd_args st) factors n HL') as HB. fold pert in HB.
        exact (ptw_trans _ _ _ HB A).
      + intros i j Hi Hj. destruct (Z.eq_dec j n) as [->|Hne].
        * rewrite W1 by exact Hi. rewrite (HF _ _ _ i HP Hi). reflexivity.
        * rewrite W2; [apply B; lia|]. intros i' Hi' E. assert (i = i') by nia. subst. lia.
      + intros x Hx. rewrite W2; [apply C; exact Hx|]. intros i Hi E. nia.
  Qed.
End Loop.

(** The hypotheses on a residual: it fills the first M entries of its output from the first N entries of its array
    arguments, whatever the output held before. *)
Definition overwrites1 (M N : Z) (Fun : (Z -> R) -> (Z -> R) -> (Z -> R)) : Prop :=
  forall U U' G G' i, same N U U' -> 0 <= i < M -> Fun U G i = Fun U' G' i.
Definition overwrites2 (M N : Z) (Fun : (Z -> R) -> (Z -> R) -> (Z -> R) -> (Z -> R)) : Prop :=
  forall V V' U U' G G' i, same N V V' -> same N U U' -> 0 <= i < M -> Fun V U G i = Fun V' U' G' i.
Definition overwrites3 (M N : Z) (Fun : (Z -> R) -> (Z -> R) -> (Z -> R) -> (Z -> R) -> (Z -> R)) : Prop :=
  forall A A' V V' U U' G G' i, same N A A' -> same N V V' -> same N U U' -> 0 <= i < M -> Fun A V U G i = Fun A' V' U' G' i.

(** Every entry of J is the difference quotient in the direction of one unknown moving together with its time
    derivatives; the arguments come back unchanged and nothing outside J is written. *)
Theorem C47_difference_quotients :
  forall (sqrteps : R) (M N : Z) (J0 : Z -> R), (0 < sqrteps)%R -> 0 <= M -> 0 <= N ->
  let z := fun _ : Z => 0%R in
  (forall Fun U, overwrites1 M N Fun -> let st := jacobian_fd sqrteps M N Fun U J0 in exists h, h = wp_step sqrteps N U /\ (0 < h)%R /\
     (forall i j, 0 <= i < M -> 0 <= j < N -> fd_J st (i*N+j) = ((Fun (bump U j h) z i - Fun U z i)/h)%R) /\
     (forall k, nth 0 (fd_args st) z k = U k) /\ (forall x, x < 0 \/ M*N <= x -> fd_J st x = J0 x)) /\
  (forall Fun s V t U, overwrites2 M N (fun V U => Fun s V t U) -> let st := ijacobian_fd sqrteps M N Fun s V t U J0 in exists h, h = wp_step sqrteps N U /\ (0 < h)%R /\
     (forall i j, 0 <= i < M -> 0 <= j < N ->
        fd_J st (i*N+j) = ((Fun s (bump V j (h*s)) t (bump U j h) z i - Fun s V t U z i)/h)%R) /\
     (forall k, nth 0 (fd_args st) z k = V k) /\ (forall k, nth 1 (fd_args st) z k = U k) /\ (forall x, x < 0 \/ M*N <= x -> fd_J st x = J0 x)) /\
  (forall Fun s V t U t0 U0, overwrites2 M N (fun V U => Fun s V t U t0 U0) ->
     let st := iejacobian_fd sqrteps M N Fun s V t U t0 U0 J0 in exists h, h = wp_step sqrteps N U /\ (0 < h)%R /\
     (forall i j, 0 <= i < M -> 0 <= j < N ->
        fd_J st (i*N+j) = ((Fun s (bump V j (h*s)) t (bump U j h) t0 U0 z i - Fun s V t U t0 U0 z i)/h)%R) /\
     (forall k, nth 0 (fd_args st) z k = V k) /\ (forall k, nth 1 (fd_args st) z k = U k) /\ (forall x, x < 0 \/ M*N <= x -> fd_J st x = J0 x)) /\
  (forall Fun a A v V t U, overwrites3 M N (fun A V U => Fun a A v V t U) ->
     let st := i2jacobian_fd sqrteps M N Fun a A v V t U J0 in exists h, h = wp_step sqrteps N U /\ (0 < h)%R /\
     (forall i j, 0 <= i < M -> 0 <= j < N ->
        fd_J st (i*N+j) = ((Fun a (bump A j (h*a)) v (bump V j (h*v)) t (bump U j h) z i - Fun a A v V t U z i)/h)%R) /\
     (forall k, nth 0 (fd_args st) z k = A k) /\ (forall k, nth 1 (fd_args st) z k = V k) /\ (forall k, nth 2 (fd_args st) z k = U k) /\
     (forall x, x < 0 \/ M*N <= x -> fd_J st x = J0 x)) /\
  (forall Fun t U, overwrites1 M N (Fun t) -> let st := rhsjacobian_fd sqrteps M N Fun t U J0 in exists h, h = wp_step sqrteps N U /\ (0 < h)%R /\
     (forall i j, 0 <= i < M -> 0 <= j < N -> fd_J st (i*N+j) = ((Fun t (bump U j h) z i - Fun t U z i)/h)%R) /\
     (forall k, nth 0 (fd_args st) z k = U k) /\ (forall x, x < 0 \/ M*N <= x -> fd_J st x = J0 x)).
Proof.
  intros sqrteps M N J0 Hs HM HN z.
  assert (S0 : forall X, same N X X) by (intros X k _; reflexivity).
  assert (SB : forall X j h, same N (bump X j (h * 1)%R) (bump X j h)).
  { intros X j h k _. unfold bump. destruct (k =? j); [rewrite Rmult_1_r|]; reflexivity. }
  split; [|split; [|split; [|split]]].
  - intros Fun U HO st. exists (delta_wp sqrteps N U). split; [apply delta_wp_eq|]. split; [apply delta_wp_pos; assumption|].
    destruct (fd_loop_spec M N HM (fun l G => Fun (nth 0 l zero_array) G) (Fun U zero_array) (delta_wp sqrteps N U)
                (fun l i => Fun (nth 0 l zero_array) z i)
                ltac:(intros a a' G i HA Hi; inversion HA; subst; cbn [nth]; apply HO; auto)
                [1%R] [U] zero_array J0 eq_refl HN) as (A & B & C).
    split; [|split].
    + intros i j Hi Hj. unfold st, jacobian_fd. rewrite B by assumption. cbn [bumps combine map nth fst snd].
      f_equal. f_equal; apply HO; auto.
    + intros k. unfold st, jacobian_fd. inversion A; subst. cbn [nth]. auto.
    + exact C.
  - intros Fun s V t U HO st. exists (delta_wp sqrteps N U). split; [apply delta_wp_eq|]. split; [apply delta_wp_pos; assumption|].
    destruct (fd_loop_spec M N HM (fun l G => Fun s (nth 0 l zero_array) t (nth 1 l zero_array) G) (Fun s V t U zero_array) (delta_wp sqrteps N U)
                (fun l i => Fun s (nth 0 l zero_array) t (nth 1 l zero_array) z i)
                ltac:(intros a a' G i HA Hi; inversion HA as [|? ? ? ? ? HA']; subst; [apply HO; auto|inversion HA'; subst; cbn [nth]; apply HO; auto])
                [s; 1%R] [V; U] zero_array J0 eq_refl HN) as (A & B & C).
    inversion A as [|? ? ? ? A1 A2 E1]; subst. inversion A2 as [|? ? ? ? A3 A4 E2]; subst.
    split; [|split; [|split]].
    + intros i j Hi Hj. unfold st, ijacobian_fd. rewrite B by assumption. cbn [bumps combine map nth fst snd].
      f_equal. f_equal; apply HO; auto.
    + intros k. unfold st, ijacobian_fd. rewrite <- E1. cbn [nth]. auto.
    + intros k. unfold st, ijacobian_fd. rewrite <- E1. cbn [nth]. auto.
    + exact C.
  - intros Fun s V t U t0 U0 HO st. exists (delta_wp sqrteps N U). split; [apply delta_wp_eq|]. split; [apply delta_wp_pos; assumption|].
    destruct (fd_loop_spec M N HM (fun l G => Fun s (nth 0 l zero_array) t (nth 1 l zero_array) t0 U0 G) (Fun s V t U t0 U0 zero_array) (delta_wp sqrteps N U)
                (fun l i => Fun s (nth 0 l zero_array) t (nth 1 l zero_array) t0 U0 z i)
                ltac:(intros a a' G i HA Hi; inversion HA as [|? ? ? ? ? HA']; subst; [apply HO; auto|inversion HA'; subst; cbn [nth]; apply HO; auto])
                [s; 1%R] [V; U] zero_array J0 eq_refl HN) as (A & B & C).
    inversion A as [|? ? ? ? A1 A2 E1]; subst. inversion A2 as [|? ? ? ? A3 A4 E2]; subst.
    split; [|split; [|split]].
    + intros i j Hi Hj. unfold st, iejacobian_fd. rewrite B by assumption. cbn [bumps combine map nth fst snd].
      f_equal. f_equal; apply HO; auto.
    + intros k. unfold st, iejacobian_fd. rewrite <- E1. cbn [nth]. auto.
    + intros k. unfold st, iejacobian_fd. rewrite <- E1. cbn [nth]. auto.
    + exact C.
  - intros Fun a A v V t U HO st. exists (delta_wp sqrteps N U). split; [apply delta_wp_eq|]. split; [apply delta_wp_pos; assumption|].
    destruct (fd_loop_spec M N HM (fun l G => Fun a (nth 0 l zero_array) v (nth 1 l zero_array) t (nth 2 l zero_array) G) (Fun a A v V t U zero_array) (delta_wp sqrteps N U)
                (fun l i => Fun a (nth 0 l zero_array) v (nth 1 l zero_array) t (nth 2 l zero_array) z i)
                ltac:(intros b b' G i HA Hi; inversion HA as [|? ? ? ? ? HA']; subst; [apply HO; auto|];
                      inversion HA' as [|? ? ? ? ? HA'']; subst; [cbn [nth]; apply HO; auto|]; inversion HA''; subst; cbn [nth]; apply HO; auto)
                [a; v; 1%R] [A; V; U] zero_array J0 eq_refl HN) as (P & B & C).
    inversion P as [|? ? ? ? A1 A2 E1]; subst. inversion A2 as [|? ? ? ? A3 A4 E2]; subst. inversion A4 as [|? ? ? ? A5 A6 E3]; subst.
    split; [|split; [|split; [|split]]].
    + intros i j Hi Hj. unfold st, i2jacobian_fd. rewrite B by assumption. cbn [bumps combine map nth fst snd].
      f_equal. f_equal; apply HO; auto.
    + intros k. unfold st, i2jacobian_fd. rewrite <- E1. cbn [nth]. auto.
    + intros k. unfold st, i2jacobian_fd. rewrite <- E1. cbn [nth]. auto.
    + intros k. unfold st, i2jacobian_fd. rewrite <- E1. cbn [nth]. auto.
    + exact C.
  - intros Fun t U HO st. exists (delta_wp sqrteps N U). split; [apply delta_wp_eq|]. split; [apply delta_wp_pos; assumption|].
    destruct (fd_loop_spec M N HM (fun l G => Fun t (nth 0 l zero_array) G) (Fun t U zero_array) (delta_wp sqrteps N U)
                (fun l i => Fun t (nth 0 l zero_array) z i)
                ltac:(intros a a' G i HA Hi; inversion HA; subst; cbn [nth]; apply HO; auto)
                [1%R] [U] zero_array J0 eq_refl HN) as (A & B & C).
    split; [|split].
    + intros i j Hi Hj. unfold st, rhsjacobian_fd. rewrite B by assumption. cbn [bumps combine map nth fst snd].
      f_equal. f_equal; apply HO; auto.
    + intros k. unfold st, rhsjacobian_fd. inversion A; subst. cbn [nth]. auto.
    + exact C.
Qed.
Print Assumptions C47_difference_quotients.

Lemma lin_part_bump N K X j d i : 0 <= j < N -> lin_part N K (bump X j d) i = (lin_part N K X i + K i j * d)%R.
Proof. intros H. apply (rsum_bump (K i)). exact H. Qed.
Lemma lin_part_same N K X X' i : same N X X' -> lin_part N K X i = lin_part N K X' i.
Proof. intros H. apply rsum_ext. intros k Hk. apply in_zseq in Hk. rewrite H by lia. reflexivity. Qed.

(** For residuals affine in the unknowns and their time derivatives, the matrices are exact: dF/dU + s dF/dV
    (+ a dF/dA) with the shifts of the time integrator. *)
Theorem C47_exact_for_affine :
  forall (sqrteps : R) (M N : Z) (J0 : Z -> R) (KA KV KU : Z -> Z -> R) (c : Z -> R), (0 < sqrteps)%R -> 0 <= M -> 0 <= N ->
  (forall Fun U, (forall U G i, 0 <= i < M -> Fun U G i = (c i + lin_part N KU U i)%R) ->
     forall i j, 0 <= i < M -> 0 <= j < N -> fd_J (jacobian_fd sqrteps M N Fun U J0) (i*N+j) = KU i j) /\
  (forall Fun s V t U, (forall V U G i, 0 <= i < M -> Fun s V t U G i = (c i + lin_part N KV V i + lin_part N KU U i)%R) ->
     forall i j, 0 <= i < M -> 0 <= j < N -> fd_J (ijacobian_fd sqrteps M N Fun s V t U J0) (i*N+j) = (KU i j + s * KV i j)%R) /\
  (forall Fun s V t U t0 U0, (forall V U G i, 0 <= i < M -> Fun s V t U t0 U0 G i = (c i + lin_part N KV V i + lin_part N KU U i)%R) ->
     forall i j, 0 <= i < M -> 0 <= j < N -> fd_J (iejacobian_fd sqrteps M N Fun s V t U t0 U0 J0) (i*N+j) = (KU i j + s * KV i j)%R) /\
  (forall Fun a A v V t U, (forall A V U G i, 0 <= i < M -> Fun a A v V t U G i = (c i + lin_part N KA A i + lin_part N KV V i + lin_part N KU U i)%R) ->
     forall i j, 0 <= i < M -> 0 <= j < N -> fd_J (i2jacobian_fd sqrteps M N Fun a A v V t U J0) (i*N+j) = (KU i j + v * KV i j + a * KA i j)%R) /\
  (forall Fun t U, (forall U G i, 0 <= i < M -> Fun t U G i = (c i + lin_part N KU U i)%R) ->
     forall i j, 0 <= i < M -> 0 <= j < N -> fd_J (rhsjacobian_fd sqrteps M N Fun t U J0) (i*N+j) = KU i j).
Proof.
  intros sqrteps M N J0 KA KV KU c Hs HM HN.
  destruct (C47_difference_quotients sqrteps M N J0 Hs HM HN) as (H1 & H2 & H3 & H4 & H5).
  split; [|split; [|split; [|split]]].
  - intros Fun U HF i j Hi Hj. destruct (H1 Fun U) as (h & _ & Hh & E & _).
    + intros X X' G G' i' S1 Hi'. rewrite !HF by assumption. rewrite (lin_part_same N KU X X') by assumption. reflexivity.
    + rewrite E by assumption. rewrite !HF by assumption. rewrite lin_part_bump by assumption. field. lra.
  - intros Fun s V t U HF i j Hi Hj. destruct (H2 Fun s V t U) as (h & _ & Hh & E & _).
    + intros Y Y' X X' G G' i' S1 S2 Hi'. rewrite !HF by assumption.
      rewrite (lin_part_same N KU X X'), (lin_part_same N KV Y Y') by assumption. reflexivity.
    + rewrite E by assumption. rewrite !HF by assumption. rewrite !lin_part_bump by assumption. field. lra.
  - intros Fun s V t U t0 U0 HF i j Hi Hj. destruct (H3 Fun s V t U t0 U0) as (h & _ & Hh & E & _).
    + intros Y Y' X X' G G' i' S1 S2 Hi'. rewrite !HF by assumption.
      rewrite (lin_part_same N KU X X'), (lin_part_same N KV Y Y') by assumption. reflexivity.
    + rewrite E by assumption. rewrite !HF by assumption. rewrite !lin_part_bump by assumption. field. lra.
  - intros Fun a A v V t U HF i j Hi Hj. destruct (H4 Fun a A v V t U) as (h & _ & Hh & E & _).
    + intros W W' Y Y' X X' G G' i' S0 S1 S2 Hi'. rewrite !HF by assumption.
      rewrite (lin_part_same N KU X X'), (lin_part_same N KV Y Y'), (lin_part_same N KA W W') by assumption. reflexivity.
    + rewrite E by assumption. rewrite !HF by assumption. rewrite !lin_part_bump by assumption. field. lra.
  - intros Fun t U HF i j Hi Hj. destruct (H5 Fun t U) as (h & _ & Hh & E & _).
    + intros X X' G G' i' S1 Hi'. rewrite !HF by assumption. rewrite (lin_part_same N KU X X') by assumption. reflexivity.
    + rewrite E by assumption. rewrite !HF by assumption. rewrite lin_part_bump by assumption. field. lra.
Qed.
Print Assumptions C47_exact_for_affine.

Lemma quotient_bound (phi D : R -> R) (h L : R) : (0 < h)%R ->
  (forall x, 0 <= x <= h -> is_derive phi x (D x))%R -> (forall x, 0 <= x <= h -> Rabs (D x - D 0) <= L * x)%R ->
  (0 <= L)%R -> (Rabs ((phi h - phi 0) / h - D 0) <= L * h)%R.
Proof.
  intros Hh HD HL L0.
  destruct (MVT_gen phi 0 h D) as (x & Hx & E).
  - intros x Hx. rewrite Rmin_left, Rmax_right in Hx by lra. apply HD. lra.
  - intros x Hx. rewrite Rmin_left, Rmax_right in Hx by lra.
    apply continuity_pt_filterlim. apply (ex_derive_continuous phi x). exists (D x). apply HD. lra.
  - rewrite Rmin_left, Rmax_right in Hx by lra. rewrite E.
    replace (D x * (h - 0) / h - D 0)%R with (D x - D 0)%R by (field; lra).
    eapply Rle_trans; [apply HL; lra|]. apply Rmult_le_compat_l; lra.
Qed.

(** For residuals that are not affine: if the residual, followed in the direction in which the unknown moves together
    with its time derivatives, has a derivative D that is Lipschitz with constant L along the increment, the entry
    differs from the derivative by at most L times the increment. *)
Theorem C47_error_bound :
  forall (sqrteps : R) (M N : Z) (J0 : Z -> R) Fun (a : R) (A : Z -> R) (v : R) (V : Z -> R) (t : R) (U : Z -> R) (i j : Z) (D : R -> R) (L : R),
  (0 < sqrteps)%R -> 0 <= M -> 0 <= N -> 0 <= i < M -> 0 <= j < N -> (0 <= L)%R ->
  overwrites3 M N (fun A V U => Fun a A v V t U) ->
  (forall x, 0 <= x <= wp_step sqrteps N U ->
     is_derive (fun y => Fun a (bump A j (y*a)) v (bump V j (y*v)) t (bump U j y) (fun _ => 0) i) x (D x) /\
     Rabs (D x - D 0) <= L * x)%R ->
  (Rabs (fd_J (i2jacobian_fd sqrteps M N Fun a A v V t U J0) (i*N+j) - D 0) <= L * wp_step sqrteps N U)%R.
Proof.
  intros sqrteps M N J0 Fun a A v V t U i j D L Hs HM HN Hi Hj HL HO HD.
  destruct (C47_difference_quotients sqrteps M N J0 Hs HM HN) as (_ & _ & _ & H4 & _).
  destruct (H4 Fun a A v V t U HO) as (h & Eh & Hh & E & _). rewrite E by assumption. rewrite <- Eh in *.
  pose proof (quotient_bound (fun y => Fun a (bump A j (y*a)%R) v (bump V j (y*v)%R) t (bump U j y) (fun _ => 0%R) i) D h L Hh) as Q.
  cbv beta in Q.
  assert (B0 : forall X c, same N X (bump X j (0 * c)%R)).
  { intros X c k _. unfold bump. rewrite Rmult_0_l, Rplus_0_r. destruct (k =? j); reflexivity. }
  assert (B1 : same N U (bump U j 0%R)).
  { intros k _. unfold bump. rewrite Rplus_0_r. destruct (k =? j); reflexivity. }
  rewrite (HO A (bump A j (0*a)%R) V (bump V j (0*v)%R) U (bump U j 0%R) (fun _ => 0%R) (fun _ => 0%R) i (B0 _ _) (B0 _ _) B1 Hi).
  apply Q; try assumption; intros x Hx; apply HD; exact Hx.
Qed.
Print Assumptions C47_error_bound.

(** A nonlinear residual with M = N = 2: F_i = A_i + U_0 U_i, perturbing entry 0 of row 0: derivative a + 2 U_0 + 2x. *)
Example C47_example :
  let Fun := fun (a : R) (A : Z -> R) (v : R) (V : Z -> R) (t : R) (U : Z -> R) (_ : Z -> R) (i : Z) => (A i + U 0%Z * U i)%R in
  let U := fun k : Z => if k =? 0 then 3%R else 5%R in
  let zero := fun _ : Z => 0%R in
  overwrites3 2 2 (fun A V U => Fun 7%R A 1%R V 0%R U) /\
  (forall x, is_derive (fun y => Fun 7 (bump zero 0%Z (y*7)) 1 (bump zero 0%Z (y*1)) 0 (bump U 0%Z y) zero 0%Z) x (7 + 6 + 2*x))%R /\
  (forall sqrteps J0, (0 < sqrteps)%R ->
   (Rabs (fd_J (i2jacobian_fd sqrteps 2 2 Fun 7 zero 1 zero 0 U J0) 0%Z - 13) <= 2 * wp_step sqrteps 2 U)%R).
Proof.
  intros Fun U zero.
  assert (HO : overwrites3 2 2 (fun A V U => Fun 7%R A 1%R V 0%R U)).
  { intros A A' V V' X X' G G' i SA SV SU Hi. unfold Fun. rewrite SA, (SU i), (SU 0) by lia. reflexivity. }
  assert (HD : (forall x, is_derive (fun y => Fun 7 (bump zero 0%Z (y*7)) 1 (bump zero 0%Z (y*1)) 0 (bump U 0%Z y) zero 0%Z) x (7 + 6 + 2*x))%R).
  { intros x. apply (is_derive_ext (fun y => (0 + y * 7 + (3 + y) * (3 + y))%R)); [reflexivity|]. auto_derive; [exact I|]. ring. }
  split; [exact HO|]. split; [exact HD|].
  intros sqrteps J0 Hs.
  pose proof (C47_error_bound sqrteps 2 2 J0 Fun 7%R zero 1%R zero 0%R U 0 0 (fun x => 7 + 6 + 2*x)%R 2%R Hs
    ltac:(lia) ltac:(lia) ltac:(lia) ltac:(lia) ltac:(lra) HO) as K.
  cbn [Z.mul Z.add] in K. replace (7 + 6 + 2 * 0)%R with 13%R in K by ring. apply K.
  intros x Hx. split; [apply HD|]. replace (7 + 6 + 2*x - 13)%R with (2*x)%R by ring. rewrite Rabs_right by lra. lra.
Qed.

(** Property C75: a residual that adds to its output array, which IGAPointGetWorkVec hands out filled with zeros, gives
    the right residual everywhere else but not the right finite difference Jacobian: G is not cleared between columns. *)
Theorem C75_accumulating_residual_refuted :
  exists (Fun : (Z -> R) -> (Z -> R) -> (Z -> R)) (f : (Z -> R) -> Z -> R) (K : Z -> Z -> R),
    (forall U G i, Fun U G i = (G i + f U i)%R) /\
    (forall U i, f U i = lin_part 2 K U i) /\
    forall sqrteps J0, (0 < sqrteps)%R ->
      let U := fun _ : Z => 1%R in
      fd_J (jacobian_fd sqrteps 2 2 Fun U J0) (0*2 + 1) <> K 0 1.
Proof.
  exists (fun U G i => (G i + (if (i =? 0)%Z then U 0%Z else U 1%Z))%R), (fun U i => if i =? 0 then U 0 else U 1),
         (fun i j => if (i =? 0) then (if j =? 0 then 1%R else 0%R) else (if j =? 1 then 1%R else 0%R)).
  split; [reflexivity|]. split.
  { intros U i. unfold lin_part, rsum. change (zseq 0 2) with [0;1]. cbn [map fold_right]. destruct (i =? 0); change (0 =? 0) with true; change (1 =? 0) with false; change (0 =? 1) with false; change (1 =? 1) with true; cbv iota; lra. }
  intros sqrteps J0 Hs U. unfold jacobian_fd, fd_loop.
  pose proof (delta_wp_pos sqrteps 2 U Hs) as Hp. set (h := delta_wp sqrteps 2 U) in *.
  clearbody h.
  cbv -[Rplus Rminus Rmult Rdiv IZR R].
  intros E. apply (f_equal (fun x => (x * h)%R)) in E. field_simplify in E; lra.
Qed.
Print Assumptions C75_accumulating_residual_refuted.

(** What does hold: the same residual with its output array cleared first gives the right matrix. *)
Theorem C75_accumulating_residual_partial :
  forall sqrteps M N Fun K U J0, (0 < sqrteps)%R -> 0 <= M -> 0 <= N ->
    (forall U G i, 0 <= i < M -> Fun U G i = (G i + lin_part N K U i)%R) ->
    forall i j, 0 <= i < M -> 0 <= j < N ->
      fd_J (jacobian_fd sqrteps M N (fun U _ => Fun U (fun _ => 0%R)) U J0) (i*N + j) = K i j.
Proof.
  intros sqrteps M N Fun K U J0 Hs HM HN HF i j Hi Hj.
  destruct (C47_exact_for_affine sqrteps M N J0 K K K (fun _ => 0%R) Hs HM HN) as (H & _).
  apply H; try assumption. intros X G k Hk. exact (HF X (fun _ => 0%R) k Hk).
Qed.
Print Assumptions C75_accumulating_residual_partial.
