(** Differentiation rules for [diff_at]. *)
From Coq Require Import ZArith List Bool Lia Reals Lra Psatz.
From Coq Require Import ZifyBool ZifyNat.
From Coquelicot Require Import Coquelicot.
From Verif Require Import Prelude GridSpec GridProofs MapSpec.
Import ListNotations.
Open Scope R_scope.

Notation S_ n f := (rsum f (zseq 1 n)).

(** ** Neighbourhoods *)
Lemma around_and n x P Q : around n x P -> around n x Q -> around n x (fun y => P y /\ Q y).
Proof.
  intros (d1 & D1 & H1) (d2 & D2 & H2). exists (Rmin d1 d2). split; [apply Rmin_glb_lt; auto|].
  intros y Hy. split; [apply H1|apply H2]; intros i Hi; specialize (Hy i Hi);
  [pose proof (Rmin_l d1 d2)|pose proof (Rmin_r d1 d2)]; lra.
Qed.
Lemma around_imp n x (P Q : pt -> Prop) : (forall y, P y -> Q y) -> around n x P -> around n x Q.
Proof. intros H (d & D & HP). exists d. auto. Qed.
Lemma around_true n x (P : pt -> Prop) : (forall y, P y) -> around n x P.
Proof. intros H. exists 1. split; [lra|auto]. Qed.
Lemma around_forall n x (P : Z -> pt -> Prop) m : (forall k, (1 <= k <= m)%Z -> around n x (P k)) ->
  around n x (fun y => forall k, (1 <= k <= m)%Z -> P k y).
Proof.
  intros H.
  assert (G : forall c s, (forall k, (s <= k < s + Z.of_nat c)%Z -> around n x (P k)) -> around n x (fun y => forall k, (s <= k < s + Z.of_nat c)%Z -> P k y)).
  { induction c as [|c IH]; intros s Hs; [apply around_true; intros; lia|].
    apply around_imp with (P := fun y => P s y /\ (forall k, (s + 1 <= k < s + 1 + Z.of_nat c)%Z -> P k y)).
    - intros y [P1 P2] k Hk. destruct (Z.eq_dec k s) as [->|]; auto. apply P2. lia.
    - apply around_and; [apply Hs; lia|apply IH; intros; apply Hs; lia]. }
  eapply around_imp; [|apply (G (Z.to_nat m) 1%Z)]; [intros y Hy k Hk; apply Hy; lia|intros; apply H; lia].
Qed.
Lemma around_self n x (P : pt -> Prop) : around n x P -> P x.
Proof. intros (d & D & H). apply H. intros i _. replace (x i - x i) with 0 by ring. rewrite Rabs_R0. auto. Qed.

(** ** Sums *)
Lemma Rabs_rsum A (f : A -> R) l : Rabs (rsum f l) <= rsum (fun x => Rabs (f x)) l.
Proof.
  induction l as [|a l IH]; [unfold rsum; simpl; rewrite Rabs_R0; lra|]. rewrite !rsum_cons.
  eapply Rle_trans; [apply Rabs_triang|]. lra.
Qed.
Lemma rsum_le A (f g : A -> R) l : (forall x, In x l -> f x <= g x) -> rsum f l <= rsum g l.
Proof.
  induction l as [|a l IH]; intros H; [unfold rsum; simpl; lra|]. rewrite !rsum_cons.
  pose proof (H a (or_introl eq_refl)). assert (rsum f l <= rsum g l) by (apply IH; intros; apply H; right; auto). lra.
Qed.
Lemma rsum_nonneg A (f : A -> R) l : (forall x, In x l -> 0 <= f x) -> 0 <= rsum f l.
Proof. intros H. rewrite <- (rsum_zero A (fun _ => 0) l) by auto. apply rsum_le. auto. Qed.
Lemma rsum_elem A (f : A -> R) l a : (forall x, In x l -> 0 <= f x) -> In a l -> f a <= rsum f l.
Proof.
  induction l as [|b l IH]; intros H Ha; [destruct Ha|]. rewrite rsum_cons. destruct Ha as [->|Ha].
  - assert (0 <= rsum f l) by (apply rsum_nonneg; intros; apply H; right; auto). lra.
  - assert (f a <= rsum f l) by (apply IH; auto; intros; apply H; right; auto). pose proof (H b (or_introl eq_refl)). lra.
Qed.

Lemma rsum_const_z n d : S_ n (fun _ => d) = IZR (Z.max n 0) * d.
Proof.
  assert (G : forall l, rsum (fun _ : Z => d) l = IZR (Z.of_nat (length l)) * d).
  { induction l as [|a l IH]; [unfold rsum; simpl; ring|]. rewrite rsum_cons, IH. cbn [length]. rewrite Nat2Z.inj_succ, succ_IZR. ring. }
  rewrite G, length_zseq. f_equal. f_equal. lia.
Qed.
Lemma dist1_nonneg n x y : 0 <= dist1 n x y.
Proof. apply rsum_nonneg. intros. apply Rabs_pos. Qed.
Lemma coord_dist1 n x y i : (1 <= i <= n)%Z -> Rabs (y i - x i) <= dist1 n x y.
Proof. intros Hi. apply (rsum_elem _ (fun i => Rabs (y i - x i))); [intros; apply Rabs_pos|apply in_zseq; lia]. Qed.
Lemma dist1_around n x e : 0 < e -> around n x (fun y => dist1 n x y < e).
Proof.
  intros He. exists (e / (IZR (Z.max n 0) + 1)). assert (P : 0 < IZR (Z.max n 0) + 1) by (pose proof (IZR_le 0 (Z.max n 0) ltac:(lia)); lra).
  split; [apply Rdiv_lt_0_compat; auto|]. intros y Hy. unfold dist1. set (d := e / (IZR (Z.max n 0) + 1)) in *.
  assert (D : 0 < d) by (apply Rdiv_lt_0_compat; auto).
  apply Rle_lt_trans with (IZR (Z.max n 0) * d).
  - rewrite <- (rsum_const_z n d). apply rsum_le. intros i Hi. apply in_zseq in Hi. specialize (Hy i ltac:(lia)). lra.
  - unfold d. apply Rlt_le_trans with ((IZR (Z.max n 0) + 1) * (e / (IZR (Z.max n 0) + 1))); [apply Rmult_lt_compat_r; [auto|lra]|].
    right. field. lra.
Qed.

(** ** Basic rules *)
Lemma diff_ext n f g x df : (forall y, f y = g y) -> diff_at n f x df -> diff_at n g x df.
Proof. intros E H eps He. eapply around_imp; [|apply (H eps He)]. intros y. cbv beta. rewrite !E. auto. Qed.
Lemma diff_ext_loc n f g x df : around n x (fun y => f y = g y) -> diff_at n f x df -> diff_at n g x df.
Proof.
  intros E H eps He. pose proof (around_self _ _ _ E) as Ex. cbv beta in Ex.
  eapply around_imp; [|apply (around_and _ _ _ _ E (H eps He))]. intros y. cbv beta. intros [Ey Hy]. rewrite <- Ey, <- Ex. auto.
Qed.
Lemma diff_grad n f x g h : (forall i, (1 <= i <= n)%Z -> g i = h i) -> diff_at n f x g -> diff_at n f x h.
Proof.
  intros E H eps He. eapply around_imp; [|apply (H eps He)]. intros y. cbv beta.
  rewrite (rsum_ext _ (fun i => h i * (y i - x i)) (fun i => g i * (y i - x i))); auto.
  intros i Hi. apply in_zseq in Hi. rewrite E by lia. auto.
Qed.
Lemma diff_const n c x : diff_at n (fun _ => c) x (fun _ => 0).
Proof.
  intros eps He. apply around_true. intros y. rewrite (rsum_zero _ _ (zseq 1 n)) by (intros; ring).
  replace (c - c - 0) with 0 by ring. rewrite Rabs_R0. apply Rmult_le_pos; [lra|apply dist1_nonneg].
Qed.
Lemma diff_coord n k x : (1 <= k <= n)%Z -> diff_at n (fun y => y k) x (fun i => kd i k).
Proof.
  intros Hk eps He. apply around_true. intros y.
  rewrite (rsum_single _ _ _ k); [|apply NoDup_zseq|apply in_zseq; lia|].
  - unfold kd. rewrite Z.eqb_refl. replace (y k - x k - 1 * (y k - x k)) with 0 by ring. rewrite Rabs_R0. apply Rmult_le_pos; [lra|apply dist1_nonneg].
  - intros i _ Ni. unfold kd. replace (i =? k)%Z with false by lia. ring.
Qed.
Lemma diff_plus n f g x df dg : diff_at n f x df -> diff_at n g x dg -> diff_at n (fun y => f y + g y) x (fun i => df i + dg i).
Proof.
  intros Hf Hg eps He. eapply around_imp; [|apply (around_and _ _ _ _ (Hf (eps/2) ltac:(lra)) (Hg (eps/2) ltac:(lra)))].
  intros y. cbv beta. intros [A B].
  rewrite (rsum_ext _ _ (fun i => df i * (y i - x i) + dg i * (y i - x i))) by (intros; ring). rewrite rsum_plus.
  replace (f y + g y - (f x + g x) - (S_ n (fun i => df i * (y i - x i)) + S_ n (fun i => dg i * (y i - x i))))
    with ((f y - f x - S_ n (fun i => df i * (y i - x i))) + (g y - g x - S_ n (fun i => dg i * (y i - x i)))) by ring.
  eapply Rle_trans; [apply Rabs_triang|]. lra.
Qed.

(** ** Continuity and the chain rule *)
Lemma diff_lipschitz n f x g : diff_at n f x g ->
  around n x (fun y => Rabs (f y - f x) <= (1 + S_ n (fun i => Rabs (g i))) * dist1 n x y).
Proof.
  intros H. eapply around_imp; [|apply (H 1 ltac:(lra))]. intros y Hy. cbv beta in Hy.
  replace (f y - f x) with ((f y - f x - S_ n (fun i => g i * (y i - x i))) + S_ n (fun i => g i * (y i - x i))) by ring.
  eapply Rle_trans; [apply Rabs_triang|]. rewrite Rmult_plus_distr_r. apply Rplus_le_compat; auto.
  eapply Rle_trans; [apply Rabs_rsum|].
  rewrite Rmult_comm, <- rsum_scal. apply rsum_le. intros i Hi. apply in_zseq in Hi. rewrite Rabs_mult, Rmult_comm.
  apply Rmult_le_compat_r; [apply Rabs_pos|]. apply coord_dist1. lia.
Qed.
Lemma diff_cont n f x g : diff_at n f x g -> cont_at n f x.
Proof.
  intros H eps He. set (L := 1 + S_ n (fun i => Rabs (g i))).
  assert (LP : 1 <= L) by (unfold L; pose proof (rsum_nonneg _ (fun i => Rabs (g i)) (zseq 1 n) ltac:(intros; apply Rabs_pos)); lra).
  eapply around_imp; [|apply (around_and _ _ _ _ (diff_lipschitz n f x g H) (dist1_around n x (eps / L) ltac:(apply Rdiv_lt_0_compat; lra)))].
  intros y. cbv beta. fold L. intros [A B]. eapply Rle_lt_trans; [exact A|].
  apply Rlt_le_trans with (L * (eps / L)); [apply Rmult_lt_compat_l; lra|]. right. field. lra.
Qed.

(** The map y |-> (F 1 y, ..., F m y) followed by f. *)
Lemma diff_comp n m (f : pt -> R) (F : pt -> pt) x g E :
  diff_at m f (F x) g -> (forall k, (1 <= k <= m)%Z -> diff_at n (fun y => F y k) x (E k)) ->
  diff_at n (fun y => f (F y)) x (fun i => S_ m (fun k => g k * E k i)).
Proof.
  intros Hf HF eps He.
  set (L := S_ m (fun k => 1 + S_ n (fun i => Rabs (E k i)))). set (G := S_ m (fun k => Rabs (g k))).
  assert (L0 : 0 <= L) by (apply rsum_nonneg; intros; pose proof (rsum_nonneg _ (fun i => Rabs (E x0 i)) (zseq 1 n) ltac:(intros; apply Rabs_pos)); lra).
  assert (G0 : 0 <= G) by (apply rsum_nonneg; intros; apply Rabs_pos).
  set (e1 := eps / 2 / (L + 1)). set (e2 := eps / 2 / (G + 1)).
  assert (P1 : 0 < e1) by (apply Rdiv_lt_0_compat; lra). assert (P2 : 0 < e2) by (apply Rdiv_lt_0_compat; lra).
  destruct (Hf e1 P1) as (d & D & Hd).
  assert (A1 : around n x (fun y => forall k, (1 <= k <= m)%Z -> Rabs (F y k - F x k) < d)).
  { apply around_forall. intros k Hk. apply (diff_cont n _ x _ (HF k Hk)); auto. }
  assert (A2 : around n x (fun y => forall k, (1 <= k <= m)%Z -> Rabs (F y k - F x k) <= (1 + S_ n (fun i => Rabs (E k i))) * dist1 n x y)).
  { apply around_forall. intros k Hk. apply (diff_lipschitz n _ x _ (HF k Hk)). }
  assert (A3 : around n x (fun y => forall k, (1 <= k <= m)%Z -> Rabs (F y k - F x k - S_ n (fun i => E k i * (y i - x i))) <= e2 * dist1 n x y)).
  { apply around_forall. intros k Hk. apply (HF k Hk); auto. }
  eapply around_imp; [|apply (around_and _ _ _ _ A1 (around_and _ _ _ _ A2 A3))]. clear A1 A2 A3.
  intros y (B1 & B2 & B3). specialize (Hd (F y) ltac:(intros k Hk; auto)). cbv beta in Hd.
  assert (DL : dist1 m (F x) (F y) <= L * dist1 n x y).
  { unfold dist1 at 1. rewrite Rmult_comm. unfold L. rewrite <- rsum_scal. apply rsum_le. intros k Hk. apply in_zseq in Hk. rewrite Rmult_comm. apply B2. lia. }
  assert (SS : S_ n (fun i => S_ m (fun k => g k * E k i) * (y i - x i)) = S_ m (fun k => g k * S_ n (fun i => E k i * (y i - x i)))).
  { rewrite (rsum_ext _ (fun i => S_ m (fun k => g k * E k i) * (y i - x i)) (fun i => S_ m (fun k => g k * (E k i * (y i - x i))))).
    - rewrite rsum_comm. apply rsum_ext. intros k _. rewrite rsum_scal. auto.
    - intros i _. rewrite Rmult_comm, <- rsum_scal. apply rsum_ext. intros; ring. }
  rewrite SS.
  replace (f (F y) - f (F x) - S_ m (fun k => g k * S_ n (fun i => E k i * (y i - x i))))
    with ((f (F y) - f (F x) - S_ m (fun k => g k * (F y k - F x k))) + S_ m (fun k => g k * (F y k - F x k - S_ n (fun i => E k i * (y i - x i))))).
  2:{ rewrite (rsum_ext _ (fun k => g k * (F y k - F x k - S_ n (fun i => E k i * (y i - x i)))) (fun k => g k * (F y k - F x k) + (-1) * (g k * S_ n (fun i => E k i * (y i - x i))))) by (intros; ring).
      rewrite rsum_plus, rsum_scal. ring. }
  eapply Rle_trans; [apply Rabs_triang|].
  assert (D0 := dist1_nonneg n x y).
  assert (Q1 : Rabs (f (F y) - f (F x) - S_ m (fun k => g k * (F y k - F x k))) <= eps / 2 * dist1 n x y).
  { eapply Rle_trans; [exact Hd|]. apply Rle_trans with (e1 * (L * dist1 n x y)); [apply Rmult_le_compat_l; lra|].
    rewrite <- Rmult_assoc. apply Rmult_le_compat_r; auto. unfold e1. apply Rle_trans with (eps / 2 / (L + 1) * (L + 1)); [apply Rmult_le_compat_l; [fold e1; lra|lra]|right; field; lra]. }
  assert (Q2 : Rabs (S_ m (fun k => g k * (F y k - F x k - S_ n (fun i => E k i * (y i - x i))))) <= eps / 2 * dist1 n x y).
  { eapply Rle_trans; [apply Rabs_rsum|]. apply Rle_trans with (G * (e2 * dist1 n x y)).
    - rewrite Rmult_comm. unfold G. rewrite <- rsum_scal. apply rsum_le. intros k Hk. apply in_zseq in Hk. rewrite Rabs_mult, Rmult_comm.
      apply Rmult_le_compat_r; [apply Rabs_pos|]. apply B3. lia.
    - rewrite <- Rmult_assoc. apply Rmult_le_compat_r; auto. unfold e2.
      apply Rle_trans with ((G + 1) * (eps / 2 / (G + 1))); [apply Rmult_le_compat_r; [fold e2; lra|lra]|right; field; lra]. }
  lra.
Qed.

(** A function of one variable. *)
Lemma diff_fun1 phi t d x : is_derive phi t d -> x 1%Z = t -> diff_at 1 (fun y => phi (y 1%Z)) x (fun _ => d).
Proof.
  intros H Hx eps He. subst t. apply is_derive_Reals in H. destruct (H eps He) as [[dl Dl] Hd]. simpl in Hd.
  exists dl. split; auto. intros y Hy. specialize (Hy 1%Z ltac:(lia)). unfold dist1. change (zseq 1 1) with [1%Z]. rewrite !rsum_cons. unfold rsum; simpl.
  set (h := y 1%Z - x 1%Z) in *. replace (y 1%Z) with (x 1%Z + h) by (unfold h; ring).
  destruct (Req_dec h 0) as [->|Nh].
  - rewrite Rplus_0_r. replace (phi (x 1%Z) - phi (x 1%Z) - (d * 0 + 0)) with 0 by ring. rewrite Rabs_R0. lra.
  - specialize (Hd h Nh Hy). replace (phi (x 1%Z + h) - phi (x 1%Z) - (d * h + 0)) with (((phi (x 1%Z + h) - phi (x 1%Z)) / h - d) * h) by (field; auto).
    rewrite Rabs_mult. rewrite Rplus_0_r. apply Rmult_le_compat_r; [apply Rabs_pos|lra].
Qed.
Lemma diff_comp1 n phi f x d df : is_derive phi (f x) d -> diff_at n f x df -> diff_at n (fun y => phi (f y)) x (fun i => d * df i).
Proof.
  intros Hp Hf. pose proof (diff_comp n 1 (fun y => phi (y 1%Z)) (fun y _ => f y) x (fun _ => d) (fun _ => df)) as C.
  eapply diff_grad; [|apply C].
  - intros i _. change (d * df i + 0 = d * df i). ring.
  - apply (diff_fun1 phi (f x)); auto.
  - auto.
Qed.
Lemma diff_mult2 x : diff_at 2 (fun y => y 1%Z * y 2%Z) x (fun i => if (i =? 1)%Z then x 2%Z else x 1%Z).
Proof.
  intros eps He. exists eps. split; auto. intros y Hy. unfold dist1. change (zseq 1 2) with [1%Z; 2%Z]. rewrite !rsum_cons. unfold rsum; simpl.
  pose proof (Hy 1%Z ltac:(lia)) as H1. set (h := y 1%Z - x 1%Z) in *. set (k := y 2%Z - x 2%Z) in *.
  replace (y 1%Z * y 2%Z - x 1%Z * x 2%Z - (x 2%Z * h + (x 1%Z * k + 0))) with (h * k) by (unfold h, k; ring).
  rewrite Rabs_mult. pose proof (Rabs_pos k). pose proof (Rabs_pos h).
  apply Rle_trans with (eps * Rabs k); [apply Rmult_le_compat_r; lra|]. apply Rmult_le_compat_l; lra.
Qed.
Lemma diff_mult n f g x df dg : diff_at n f x df -> diff_at n g x dg -> diff_at n (fun y => f y * g y) x (fun i => df i * g x + f x * dg i).
Proof.
  intros Hf Hg. set (F := fun (y : pt) (k : Z) => if (k =? 1)%Z then f y else g y).
  pose proof (diff_comp n 2 (fun y => y 1%Z * y 2%Z) F x _ (fun k => if (k =? 1)%Z then df else dg) (diff_mult2 (F x))) as C.
  eapply diff_grad; [|apply C].
  - intros i _. cbv beta. change (zseq 1 2) with [1%Z; 2%Z]. rewrite !rsum_cons. unfold rsum, F; simpl. ring.
  - intros k Hk. unfold F. destruct (k =? 1)%Z; auto.
Qed.
Lemma diff_scal n c f x df : diff_at n f x df -> diff_at n (fun y => c * f y) x (fun i => c * df i).
Proof. intros Hf. eapply diff_grad; [|apply (diff_mult n _ _ x _ _ (diff_const n c x) Hf)]. intros; cbv beta; ring. Qed.
Lemma diff_minus n f g x df dg : diff_at n f x df -> diff_at n g x dg -> diff_at n (fun y => f y - g y) x (fun i => df i - dg i).
Proof.
  intros Hf Hg. eapply diff_ext; [|eapply diff_grad; [|apply (diff_plus n _ _ x _ _ Hf (diff_scal n (-1) _ _ _ Hg))]]; intros; cbv beta; ring.
Qed.
Lemma diff_opp n f x df : diff_at n f x df -> diff_at n (fun y => - f y) x (fun i => - df i).
Proof. intros Hf. eapply diff_ext; [|eapply diff_grad; [|apply (diff_scal n (-1) _ _ _ Hf)]]; intros; cbv beta; ring. Qed.
Lemma diff_inv n f x df : f x <> 0 -> diff_at n f x df -> diff_at n (fun y => / f y) x (fun i => - df i / (f x * f x)).
Proof.
  intros H0 Hf. eapply diff_grad; [|apply (diff_comp1 n Rinv f x (- 1 / (f x * f x)) df); auto].
  - intros; cbv beta. field. auto.
  - auto_derive; auto; try (field; auto).
Qed.
Lemma diff_div n f g x df dg : g x <> 0 -> diff_at n f x df -> diff_at n g x dg ->
  diff_at n (fun y => f y / g y) x (fun i => (df i - f x / g x * dg i) / g x).
Proof.
  intros H0 Hf Hg. eapply diff_grad; [|apply (diff_mult n _ _ x _ _ Hf (diff_inv n g x dg H0 Hg))]. intros; cbv beta. field. auto.
Qed.
Lemma diff_rsum n A (f : A -> pt -> R) (l : list A) x df : (forall a, In a l -> diff_at n (f a) x (df a)) ->
  diff_at n (fun y => rsum (fun a => f a y) l) x (fun i => rsum (fun a => df a i) l).
Proof.
  induction l as [|a l IH]; intros H.
  - exact (diff_const n 0 x).
  - eapply diff_ext; [|eapply diff_grad; [|apply (diff_plus n (f a) (fun y => rsum (fun a => f a y) l) x (df a) (fun i => rsum (fun a => df a i) l))]].
    + intros y. rewrite rsum_cons. auto.
    + intros i _. rewrite rsum_cons. auto.
    + apply H. left; auto.
    + apply IH. intros b Hb. apply H. right; auto.
Qed.

(** ** The derivative is unique and consists of the partial derivatives *)
Lemma diff_partial n f x g k : (1 <= k <= n)%Z -> diff_at n f x g -> is_derive (fun t => f (fun i => if (i =? k)%Z then t else x i)) (x k) (g k).
Proof.
  intros Hk H. apply is_derive_Reals. intros eps He. destruct (H (eps/2) ltac:(lra)) as (d & D & Hd). exists (mkposreal d D). simpl. intros h Nh Hh.
  specialize (Hd (fun i => if (i =? k)%Z then x k + h else x i)).
  assert (E : (fun i => if (i =? k)%Z then x k else x i) = x).
  { apply FunctionalExtensionality.functional_extensionality. intros i. destruct (Z.eqb_spec i k) as [->|]; auto. }
  rewrite E. cbv beta in Hd. unfold dist1 in Hd.
  rewrite (rsum_single _ (fun i => g i * _) _ k) in Hd; [|apply NoDup_zseq|apply in_zseq; lia|intros i _ Ni; replace (i =? k)%Z with false by lia; ring].
  rewrite (rsum_single _ (fun i => Rabs _) _ k) in Hd; [|apply NoDup_zseq|apply in_zseq; lia|intros i _ Ni; replace (i =? k)%Z with false by lia; rewrite Rminus_eq_0, Rabs_R0; auto].
  rewrite Z.eqb_refl in Hd. replace (x k + h - x k) with h in Hd by ring.
  assert (C : close n d x (fun i => if (i =? k)%Z then x k + h else x i)).
  { intros i Hi. destruct (Z.eqb_spec i k) as [->|]; [replace (x k + h - x k) with h by ring; auto|rewrite Rminus_eq_0, Rabs_R0; auto]. }
  specialize (Hd C). set (fh := f (fun i => if (i =? k)%Z then x k + h else x i)) in *.
  replace ((fh - f x) / h - g k) with ((fh - f x - g k * h) / h) by (field; auto).
  unfold Rdiv. rewrite Rabs_mult, Rabs_inv. assert (AH : 0 < Rabs h) by (apply Rabs_pos_lt; auto).
  apply Rle_lt_trans with (eps / 2 * Rabs h * / Rabs h); [apply Rmult_le_compat_r; [left; apply Rinv_0_lt_compat; auto|auto]|].
  rewrite Rmult_assoc, Rinv_r by lra. lra.
Qed.
Lemma diff_unique n f x g h i : diff_at n f x g -> diff_at n f x h -> (1 <= i <= n)%Z -> g i = h i.
Proof. intros Hg Hh Hi. pose proof (diff_partial n f x g i Hi Hg) as A. pose proof (diff_partial n f x h i Hi Hh) as B. apply is_derive_unique in A, B. congruence. Qed.

(** ** Differentiability of a continuous inverse *)
Lemma rsum_mult_l A c (f : A -> R) l : c * rsum f l = rsum (fun x => c * f x) l.
Proof. rewrite rsum_scal. auto. Qed.
Lemma rsum_mult_r A c (f : A -> R) l : rsum f l * c = rsum (fun x => f x * c) l.
Proof. rewrite Rmult_comm, <- rsum_scal. apply rsum_ext. intros; ring. Qed.
Lemma rsum_kd_l n k (f : Z -> R) : (1 <= k <= n)%Z -> S_ n (fun i => kd i k * f i) = f k.
Proof.
  intros Hk. rewrite (rsum_single _ _ _ k); [unfold kd; rewrite Z.eqb_refl; ring|apply NoDup_zseq|apply in_zseq; lia|].
  intros i _ Ni. unfold kd. replace (i =? k)%Z with false by lia. ring.
Qed.

Lemma diff_inverse n (x : Z -> pt -> R) (xi : pt -> pt) y X1 E1 :
  (forall k, (1 <= k <= n)%Z -> diff_at n (x k) (xi y) (fun a => X1 a k)) ->
  (forall c, (1 <= c <= n)%Z -> cont_at n (fun y => xi y c) y) ->
  around n y (fun z => forall k, (1 <= k <= n)%Z -> x k (xi z) = z k) ->
  (forall a c, (1 <= a <= n)%Z -> (1 <= c <= n)%Z -> S_ n (fun k => X1 a k * E1 k c) = kd a c) ->
  forall c, (1 <= c <= n)%Z -> diff_at n (fun y => xi y c) y (fun i => E1 i c).
Proof.
  intros HX HC HI HE c Hc eps He.
  set (K := S_ n (fun k => S_ n (fun c => Rabs (E1 k c)))).
  assert (K0 : 0 <= K) by (apply rsum_nonneg; intros; apply rsum_nonneg; intros; apply Rabs_pos).
  set (n' := IZR (Z.max n 0)). assert (N0 : 0 <= n') by (apply IZR_le; lia).
  set (e := Rmin (/ (2 * (n' * K + 1))) (eps / (2 * n' * K * K + 1))).
  assert (NK : 0 <= n' * K) by (apply Rmult_le_pos; auto). assert (NKK : 0 <= 2 * n' * K * K) by (apply Rmult_le_pos; auto; apply Rmult_le_pos; auto; lra).
  assert (EP : 0 < e) by (apply Rmin_glb_lt; [apply Rinv_0_lt_compat; lra|apply Rdiv_lt_0_compat; lra]).
  assert (E1' : e * (n' * K) <= / 2).
  { apply Rle_trans with (/ (2 * (n' * K + 1)) * (n' * K + 1)).
    - apply Rmult_le_compat; try lra. apply Rmin_l.
    - right. field. lra. }
  assert (E2' : e * (2 * n' * K * K) <= eps).
  { apply Rle_trans with (eps / (2 * n' * K * K + 1) * (2 * n' * K * K + 1)).
    - apply Rmult_le_compat; try lra. apply Rmin_r.
    - right. field. lra. }
  pose proof (around_self _ _ _ HI) as HIy. cbv beta in HIy.
  assert (R1 : exists d, 0 < d /\ forall z, close n d (xi y) z -> forall k, (1 <= k <= n)%Z ->
     Rabs (x k z - x k (xi y) - S_ n (fun a => X1 a k * (z a - xi y a))) <= e * dist1 n (xi y) z).
  { destruct (around_forall n (xi y) (fun k z => Rabs (x k z - x k (xi y) - S_ n (fun a => X1 a k * (z a - xi y a))) <= e * dist1 n (xi y) z) n) as (d & D & Hd).
    - intros k Hk. apply (HX k Hk); auto.
    - exists d. split; auto. }
  destruct R1 as (d & D & Hd).
  assert (A1 : around n y (fun z => forall c, (1 <= c <= n)%Z -> Rabs (xi z c - xi y c) < d)).
  { apply around_forall. intros k Hk. apply HC; auto. }
  eapply around_imp; [|apply (around_and _ _ _ _ A1 HI)]. clear A1 HI. intros z [B1 B2].
  specialize (Hd (xi z) ltac:(intros i Hi; apply B1; auto)).
  set (r := fun k => z k - y k - S_ n (fun a => X1 a k * (xi z a - xi y a))).
  assert (HR : forall k, (1 <= k <= n)%Z -> Rabs (r k) <= e * dist1 n (xi y) (xi z)).
  { intros k Hk. unfold r. rewrite <- (B2 k Hk), <- (HIy k Hk). apply Hd; auto. }
  assert (ID : forall c, (1 <= c <= n)%Z -> xi z c - xi y c - S_ n (fun k => E1 k c * (z k - y k)) = - S_ n (fun k => E1 k c * r k)).
  { intros c' Hc'. unfold r.
    rewrite (rsum_ext _ (fun k => E1 k c' * (z k - y k - S_ n (fun a => X1 a k * (xi z a - xi y a)))) (fun k => E1 k c' * (z k - y k) + (-1) * S_ n (fun a => (X1 a k * E1 k c') * (xi z a - xi y a)))).
    2:{ intros k _. rewrite Rmult_minus_distr_l, rsum_mult_l. rewrite (rsum_ext _ _ (fun a => (X1 a k * E1 k c') * (xi z a - xi y a))) by (intros; ring). ring. }
    rewrite rsum_plus, rsum_scal, rsum_comm.
    rewrite (rsum_ext _ (fun b => S_ n (fun a => X1 b a * E1 a c' * (xi z b - xi y b))) (fun b => kd b c' * (xi z b - xi y b))).
    2:{ intros a Ha. apply in_zseq in Ha. rewrite <- rsum_mult_r, HE by lia. auto. }
    rewrite (rsum_kd_l n c' (fun b => xi z b - xi y b)) by lia. ring. }
  set (DX := dist1 n (xi y) (xi z)) in *. set (DY := dist1 n y z). assert (DX0 : 0 <= DX) by apply dist1_nonneg. assert (DY0 : 0 <= DY) by apply dist1_nonneg.
  assert (EK : forall k c, (1 <= k <= n)%Z -> (1 <= c <= n)%Z -> Rabs (E1 k c) <= S_ n (fun c => Rabs (E1 k c))).
  { intros. apply (rsum_elem _ (fun c => Rabs (E1 k c))); [intros; apply Rabs_pos|apply in_zseq; lia]. }
  assert (BB : forall c, (1 <= c <= n)%Z -> Rabs (xi z c - xi y c - S_ n (fun k => E1 k c * (z k - y k))) <= K * (e * DX)).
  { intros c' Hc'. rewrite ID, Rabs_Ropp by auto. eapply Rle_trans; [apply Rabs_rsum|]. unfold K. rewrite rsum_mult_r. apply rsum_le. intros k Hk. apply in_zseq in Hk.
    rewrite Rabs_mult. apply Rmult_le_compat; try apply Rabs_pos; [apply EK; lia|apply HR; lia]. }
  assert (DXb : DX <= 2 * K * DY).
  { assert (T : DX <= K * DY + n' * (K * (e * DX))).
    { unfold DX at 1, dist1. unfold n'. rewrite <- rsum_const_z, (Rmult_comm K DY).
      apply Rle_trans with (S_ n (fun c => Rabs (S_ n (fun k => E1 k c * (z k - y k))) + K * (e * DX))).
      - apply rsum_le. intros c' Hc'. apply in_zseq in Hc'. specialize (BB c' ltac:(lia)).
        replace (xi z c' - xi y c') with (S_ n (fun k => E1 k c' * (z k - y k)) + (xi z c' - xi y c' - S_ n (fun k => E1 k c' * (z k - y k)))) by ring.
        eapply Rle_trans; [apply Rabs_triang|]. lra.
      - rewrite rsum_plus. apply Rplus_le_compat_r. unfold K. rewrite rsum_mult_l.
        apply Rle_trans with (S_ n (fun c => S_ n (fun k => DY * Rabs (E1 k c)))).
        + apply rsum_le. intros c' Hc'. eapply Rle_trans; [apply Rabs_rsum|]. apply rsum_le. intros k Hk. apply in_zseq in Hk. rewrite Rabs_mult, Rmult_comm.
          apply Rmult_le_compat_r; [apply Rabs_pos|]. apply (coord_dist1 n y z); lia.
        + right. rewrite rsum_comm. apply rsum_ext. intros k _. rewrite rsum_scal. auto. }
    replace (n' * (K * (e * DX))) with (e * (n' * K) * DX) in T by ring.
    assert (e * (n' * K) * DX <= / 2 * DX) by (apply Rmult_le_compat_r; auto). lra. }
  eapply Rle_trans; [apply BB; auto|].
  apply Rle_trans with (e * (2 * n' * K * K) * DY); [|apply Rmult_le_compat_r; auto].
  assert (N1 : 1 <= n') by (apply IZR_le; lia).
  replace (K * (e * DX)) with (e * (K * DX)) by ring. rewrite (Rmult_assoc e). apply Rmult_le_compat_l; [lra|].
  apply Rle_trans with (K * (2 * K * DY)); [apply Rmult_le_compat_l; auto|].
  replace (2 * n' * K * K * DY) with (n' * (2 * K * K * DY)) by ring. replace (K * (2 * K * DY)) with (1 * (2 * K * K * DY)) by ring.
  apply Rmult_le_compat_r; auto. apply Rmult_le_pos; auto. apply Rmult_le_pos; auto. lra.
Qed.
