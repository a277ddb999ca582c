(** Polynomials and their roots; linear independence of the B-spline pieces of one span. *)
From Coq Require Import ZArith List Bool Lia Reals Lra.
From Coq Require Import ZifyBool ZifyNat.
From Coquelicot Require Import Coquelicot.
From Verif Require Import Prelude RealOrd Box GridSpec GridProofs RuleSpec BasModel BasSpec BasProofs BasProofs2.
Import ListNotations.
Open Scope R_scope.

(** f is a polynomial of degree at most n. *)
Definition polyn (n : nat) (f : R -> R) : Prop := exists c, (length c <= S n)%nat /\ forall x, f x = peval c x.

Fixpoint padd (a b : list R) : list R :=
  match a, b with [], _ => b | _, [] => a | x :: a', y :: b' => (x + y) :: padd a' b' end.
Lemma padd_eval a : forall b x, peval (padd a b) x = peval a x + peval b x.
Proof. induction a as [|c a IH]; intros [|d b] x; cbn [padd peval]; try ring. rewrite IH. ring. Qed.
Lemma padd_length a : forall b, length (padd a b) = Nat.max (length a) (length b).
Proof. induction a as [|c a IH]; intros [|d b]; cbn [padd length]; auto. rewrite IH. reflexivity. Qed.
Lemma pscal_eval k a x : peval (map (Rmult k) a) x = k * peval a x.
Proof. induction a as [|c a IH]; cbn [map peval]; [ring|]. rewrite IH. ring. Qed.

Lemma polyn_ext n f g : (forall x, f x = g x) -> polyn n f -> polyn n g.
Proof. intros H (c & L & E). exists c. split; auto. intros x. rewrite <- H. apply E. Qed.
Lemma polyn_const n k : polyn n (fun _ => k).
Proof. exists [k]. split; [cbn; lia|]. intros x. cbn. ring. Qed.
Lemma polyn_plus n f g : polyn n f -> polyn n g -> polyn n (fun x => f x + g x).
Proof. intros (a & La & Ea) (b & Lb & Eb). exists (padd a b). split; [rewrite padd_length; lia|]. intros x. rewrite padd_eval, Ea, Eb. reflexivity. Qed.
Lemma polyn_scal n k f : polyn n f -> polyn n (fun x => k * f x).
Proof. intros (a & La & Ea). exists (map (Rmult k) a). split; [rewrite map_length; auto|]. intros x. rewrite pscal_eval, Ea. reflexivity. Qed.
Lemma polyn_mulx n f : polyn n f -> polyn (S n) (fun x => x * f x).
Proof. intros (a & La & Ea). exists (0 :: a). split; [cbn; lia|]. intros x. cbn. rewrite Ea. ring. Qed.
Lemma polyn_up n f : polyn n f -> polyn (S n) f.
Proof. intros (a & La & Ea). exists a. split; [lia|auto]. Qed.
Lemma polyn_lin n a b f : polyn n f -> polyn (S n) (fun x => (a * x + b) * f x).
Proof.
  intros H. apply (polyn_ext _ (fun x => a * (x * f x) + b * f x)); [intros; ring|].
  apply polyn_plus; apply polyn_scal; [apply polyn_mulx|apply polyn_up]; auto.
Qed.
Lemma polyn_rsum {A} n (f : A -> R -> R) l : (forall a, In a l -> polyn n (f a)) -> polyn n (fun x => rsum (fun a => f a x) l).
Proof.
  induction l as [|a l IH]; intros H; [apply (polyn_const n 0)|].
  apply (polyn_ext _ (fun x => f a x + rsum (fun a => f a x) l)); [intros; rewrite rsum_cons; reflexivity|].
  apply polyn_plus; [apply H; left; auto|apply IH; intros; apply H; right; auto].
Qed.

(** Division by x - a. *)
Lemma pdiv c a : exists q, length q = pred (length c) /\ forall x, peval c x = (x - a) * peval q x + peval c a.
Proof.
  induction c as [|k c IH]; [exists []; split; auto; intros; cbn; ring|].
  destruct c as [|k' c]; [exists []; split; auto; intros; cbn; ring|].
  destruct IH as (q & L & E). exists (peval (k' :: c) a :: q). split; [cbn [length] in *; lia|].
  intros x. cbn [peval] in *. rewrite (E x). ring.
Qed.
Lemma peval_roots l : forall c, NoDup l -> (forall x, In x l -> peval c x = 0) -> (length c <= length l)%nat -> forall x, peval c x = 0.
Proof.
  induction l as [|a l IH]; intros c ND HR HL x.
  - destruct c; [reflexivity|cbn in HL; lia].
  - destruct (pdiv c a) as (q & L & E). rewrite E, (HR a (or_introl eq_refl)). inversion ND; subst.
    rewrite (IH q); auto; [ring| |cbn in HL; lia].
    intros y Hy. pose proof (E y) as Ey. rewrite (HR y (or_intror Hy)), (HR a (or_introl eq_refl)) in Ey.
    assert (y <> a) by (intros ->; contradiction). assert (Z0 : (y - a) * peval q y = 0) by lra. apply Rmult_integral in Z0. destruct Z0; [lra|auto].
Qed.
(** A polynomial of degree at most n with more than n roots is zero. *)
Lemma polyn_roots n f l : polyn n f -> NoDup l -> (n < length l)%nat -> (forall x, In x l -> f x = 0) -> forall x, f x = 0.
Proof. intros (c & L & E) ND HL HR x. rewrite E. apply (peval_roots l); auto; [|lia]. intros y Hy. rewrite <- E. auto. Qed.

(** Summation by parts. *)
Lemma abel (x A : Z -> R) s n :
  rsum (fun c => x c * (A c - A (c+1)%Z)) (zseq s (Z.of_nat n + 1)) =
  x s * A s - x (s + Z.of_nat n)%Z * A (s + Z.of_nat n + 1)%Z + rsum (fun c => (x c - x (c-1)%Z) * A c) (zseq (s+1) (Z.of_nat n)).
Proof.
  induction n as [|n IH].
  - change (Z.of_nat 0) with 0%Z. rewrite zseq_cons, zseq_nil, (zseq_nil (s+1)) by lia. rewrite rsum_cons, Z.add_0_r.
    change (rsum (fun c => x c * (A c - A (c+1)%Z)) []) with 0. change (rsum (fun c => (x c - x (c-1)%Z) * A c) []) with 0. ring.
  - replace (Z.of_nat (S n) + 1)%Z with ((Z.of_nat n + 1) + 1)%Z by lia. rewrite (zseq_app s (Z.of_nat n + 1) 1) by lia. rewrite rsum_app, IH.
    replace (Z.of_nat (S n)) with (Z.of_nat n + 1)%Z by lia. rewrite (zseq_app (s+1) (Z.of_nat n) 1) by lia. rewrite rsum_app.
    rewrite (zseq_cons (s + (Z.of_nat n + 1)) 1), (zseq_cons (s + 1 + Z.of_nat n) 1) by lia. change (1-1)%Z with 0%Z. rewrite !(zseq_nil _ 0) by lia. rewrite !rsum_cons.
    replace (s + 1 + Z.of_nat n)%Z with (s + (Z.of_nat n + 1))%Z by lia. replace (s + (Z.of_nat n + 1) - 1)%Z with (s + Z.of_nat n)%Z by lia.
    replace (s + Z.of_nat n + 1)%Z with (s + (Z.of_nat n + 1))%Z by lia.
    change (rsum (fun c => x c * (A c - A (c+1)%Z)) []) with 0. change (rsum (fun c => (x c - x (c-1)%Z) * A c) []) with 0. rewrite ?(zseq_nil _ 0) by lia. change (rsum (fun c => (x c - x (c-1)%Z) * A c) []) with 0. ring.
Qed.

Section Independent.
  Variables (U : Z -> R) (i P : Z).
  Hypothesis Hs : forall a b, (i - P + 1 <= a)%Z -> (a <= b)%Z -> (b <= i + P)%Z -> U a <= U b.
  Hypothesis Hi : U i < U (i+1)%Z.
  Hypothesis HP : (0 <= P)%Z.
  Notation N := (bspline_piece U i).

  Lemma polyn_frac n f d : polyn n f -> polyn n (fun x => frac (f x) d).
  Proof using.
    clear. intros H. destruct (Req_dec d 0) as [->|E].
    - apply (polyn_ext _ (fun _ => 0)); [intros; rewrite frac_z; auto|]. apply polyn_const.
    - apply (polyn_ext _ (fun x => / d * f x)); [intros; rewrite frac_nz by auto; unfold Rdiv; ring|]. apply polyn_scal; auto.
  Qed.
  (** The pieces of degree q are polynomials of degree at most q. *)
  Lemma piece_polyn q : forall c, polyn q (N q c).
  Proof using U i.
    clear Hs Hi HP P. induction q as [|q IH]; intros c; [apply polyn_const|].
    apply (polyn_ext _ (fun u => frac ((1 * u + - U c) * N q c u) (U (c + Z.of_nat (S q))%Z - U c)
      + frac ((-1 * u + U (c + Z.of_nat (S q) + 1)%Z) * N q (c+1)%Z u) (U (c + Z.of_nat (S q) + 1)%Z - U (c+1)%Z))).
    - intros u. rewrite piece_S. f_equal; f_equal; ring.
    - apply polyn_plus; apply polyn_frac, polyn_lin; auto.
  Qed.

  (** Vanishing derivative: the coefficients are equal.  [ind] is independence in degree q. *)
  Let indep q := forall x, (forall u, rsum (fun c => x c * N q c u) (zseq (i - Z.of_nat q) (Z.of_nat q + 1)) = 0) ->
    forall c, (i - Z.of_nat q <= c <= i)%Z -> x c = 0.

  Lemma equal_step q : (Z.of_nat (S q) <= P)%Z -> indep q -> forall x,
    (forall u, rsum (fun c => x c * dpiece U i q c u) (zseq (i - Z.of_nat (S q)) (Z.of_nat (S q) + 1)) = 0) ->
    forall c, (i - Z.of_nat q <= c <= i)%Z -> x c = x (c-1)%Z.
  Proof.
    intros Hq IH x H c Hc.
    set (D := fun c => U (c + Z.of_nat (S q))%Z - U c).
    assert (HD : forall c, (i - Z.of_nat q <= c <= i)%Z -> 0 < D c).
    { intros c' Hc'. unfold D. pose proof (knots_lt U i P Hs Hi HP c' (c' + Z.of_nat (S q))%Z ltac:(lia) ltac:(lia) ltac:(lia) ltac:(lia)). lra. }
    assert (Y : (x c - x (c-1)%Z) / D c = 0).
    { apply (IH (fun c => (x c - x (c-1)%Z) / D c)); auto. intros u.
      pose proof (H u) as Hu.
      set (A := fun c => frac (N q c u) (D c)).
      assert (E : rsum (fun c => x c * dpiece U i q c u) (zseq (i - Z.of_nat (S q)) (Z.of_nat (S q) + 1)) =
                  INR (S q) * rsum (fun c => x c * (A c - A (c+1)%Z)) (zseq (i - Z.of_nat (S q)) (Z.of_nat (S q) + 1))).
      { rewrite <- rsum_scal. apply rsum_ext. intros c' _. unfold dpiece, A, D. replace (c' + 1 + Z.of_nat (S q))%Z with (c' + Z.of_nat (S q) + 1)%Z by lia. ring. }
      rewrite E in Hu. apply Rmult_integral in Hu. destruct Hu as [Hu|Hu]; [pose proof (lt_0_INR (S q) ltac:(lia)); lra|].
      rewrite abel in Hu.
      assert (A0 : A (i - Z.of_nat (S q))%Z = 0) by (unfold A; rewrite piece_zero, frac_0 by lia; auto).
      assert (A1 : A (i - Z.of_nat (S q) + Z.of_nat (S q) + 1)%Z = 0) by (unfold A; rewrite piece_zero, frac_0 by lia; auto).
      rewrite A0, A1 in Hu. replace (i - Z.of_nat (S q) + 1)%Z with (i - Z.of_nat q)%Z in Hu by lia.
      replace (Z.of_nat q + 1)%Z with (Z.of_nat (S q)) by lia.
      rewrite (rsum_ext _ _ (fun c => (x c - x (c-1)%Z) * A c)); [lra|].
      intros c' Hc'. apply in_zseq in Hc'. unfold A. pose proof (HD c' ltac:(lia)). rewrite frac_nz by lra. field. lra. }
    pose proof (HD c Hc). assert (F : x c - x (c-1)%Z = (x c - x (c-1)%Z) / D c * D c) by (field; lra). rewrite Y in F. lra.
  Qed.

  Lemma all_equal (x : Z -> R) s n : (forall c, (s < c <= s + Z.of_nat n)%Z -> x c = x (c-1)%Z) -> forall c, (s <= c <= s + Z.of_nat n)%Z -> x c = x s.
  Proof using.
    clear. induction n as [|n IH]; intros H c Hc; [replace c with s by lia; auto|].
    destruct (Z.eq_dec c (s + Z.of_nat (S n))) as [E|E]; [|apply IH; [intros; apply H; lia|lia]].
    rewrite H by lia. apply IH; [intros; apply H; lia|lia].
  Qed.

  Lemma piece_independent q : (Z.of_nat q <= P)%Z -> indep q.
  Proof.
    induction q as [|q IH]; intros Hq x H c Hc.
    - change (Z.of_nat 0) with 0%Z in *. specialize (H 0). rewrite zseq_cons, zseq_nil, rsum_cons in H by lia. replace (i - 0)%Z with i in H by lia.
      replace c with i by lia. unfold bspline_piece, bsp, piece in H. cbn [rsum map fold_right] in H. destruct (Z.eq_dec i i); [|congruence]. 
      change (x i * 1 + 0 = 0) in H. lra.
    - assert (Q : forall c, (i - Z.of_nat q <= c <= i)%Z -> x c = x (c-1)%Z).
      { apply (equal_step q); auto; [apply IH; lia|]. intros u.
        pose proof (is_derive_rsum (fun c v => x c * N (S q) c v) (fun c v => x c * dpiece U i q c v) (zseq (i - Z.of_nat (S q)) (Z.of_nat (S q) + 1)) u) as K.
        assert (K' : is_derive (fun _ : R => 0) u (rsum (fun c => x c * dpiece U i q c u) (zseq (i - Z.of_nat (S q)) (Z.of_nat (S q) + 1)))).
        { eapply is_derive_ext; [|apply K]; [intros v; apply H|]. intros c' _. apply (is_derive_scal (N (S q) c') u (x c')). apply (derive_piece U i P Hs Hi HP q); auto. }
        apply is_derive_unique in K'. rewrite Derive_const in K'. auto. }
      set (s := (i - Z.of_nat (S q))%Z) in *.
      assert (E : forall c, (s <= c <= i)%Z -> x c = x s).
      { intros c' Hc'. apply (all_equal x s (S q)); [intros; apply Q; lia|lia]. }
      rewrite E by auto. pose proof (H 0) as H0.
      rewrite (rsum_ext _ _ (fun c => x s * N (S q) c 0)) in H0.
      + rewrite rsum_scal in H0. unfold s in H0 at 2. rewrite (piece_unity U i P Hs Hi HP (S q) ltac:(lia)) in H0. lra.
      + intros c' Hc'. apply in_zseq in Hc'. rewrite E by lia. reflexivity.
  Qed.

  Section Points.
    Variable (l : list R).
    Hypothesis HND : NoDup l.
    Hypothesis HL : (P < Z.of_nat (length l))%Z.
    (** More than P distinct points determine the coefficients of degree P. *)
    Lemma points_independent (x : Z -> R) :
      (forall u, In u l -> rsum (fun a => x a * N (Z.to_nat P) (i - P + a)%Z u) (zseq 0 (P+1)) = 0) ->
      forall a, (0 <= a <= P)%Z -> x a = 0.
    Proof.
      intros H a Ha.
      assert (V : forall u, rsum (fun a => x a * N (Z.to_nat P) (i - P + a)%Z u) (zseq 0 (P+1)) = 0).
      { apply (polyn_roots (Z.to_nat P) (fun u => rsum (fun a => x a * N (Z.to_nat P) (i - P + a)%Z u) (zseq 0 (P+1))) l); auto; [|lia].
        apply (polyn_rsum (Z.to_nat P) (fun a u => x a * N (Z.to_nat P) (i - P + a)%Z u)). intros a' _. apply polyn_scal, piece_polyn. }
      replace a with ((i - P + a) - (i - P))%Z by lia. apply (piece_independent (Z.to_nat P) ltac:(lia) (fun c => x (c - (i - P))%Z)); [|lia].
      intros u. rewrite <- (V u). rewrite Z2Nat.id by lia. rewrite <- (Z.add_0_l (i - P)). rewrite <- zseq_shift, rsum_map. apply rsum_ext.
      intros a' _. f_equal; [f_equal|f_equal]; lia.
    Qed.
    (** ... and when the derivative vanishes there, the coefficients are equal. *)
    Lemma points_equal (x : Z -> R) :
      (forall u, In u l -> rsum (fun a => x a * Derive (N (Z.to_nat P) (i - P + a)%Z) u) (zseq 0 (P+1)) = 0) ->
      forall a, (0 <= a <= P)%Z -> x a = x 0%Z.
    Proof.
      intros H a Ha. destruct (Z.eq_dec P 0) as [E0|E0]; [f_equal; lia|].
      set (q := pred (Z.to_nat P)). assert (Eq : Z.to_nat P = S q) by lia. rewrite Eq in H.
      assert (DP : forall c u, Derive (N (S q) c) u = dpiece U i q c u) by (intros; apply is_derive_unique, (derive_piece U i P Hs Hi HP q); lia).
      assert (V : forall u, rsum (fun a => x a * dpiece U i q (i - P + a)%Z u) (zseq 0 (P+1)) = 0).
      { apply (polyn_roots q (fun u => rsum (fun a => x a * dpiece U i q (i - P + a)%Z u) (zseq 0 (P+1))) l); auto; [|lia|].
        - apply (polyn_rsum q (fun a u => x a * dpiece U i q (i - P + a)%Z u)). intros a' _. apply polyn_scal. unfold dpiece.
          apply (polyn_scal q). apply (polyn_ext _ (fun u => frac (N q (i - P + a')%Z u) (U (i - P + a' + Z.of_nat (S q))%Z - U (i - P + a')%Z) +
             (-1) * frac (N q (i - P + a' + 1)%Z u) (U (i - P + a' + Z.of_nat (S q) + 1)%Z - U (i - P + a' + 1)%Z))); [intros; ring|].
          apply polyn_plus; [|apply polyn_scal]; apply polyn_frac, piece_polyn.
        - intros u Hu. rewrite <- (H u Hu). apply rsum_ext. intros; rewrite DP; reflexivity. }
      assert (Q := equal_step q ltac:(lia) (piece_independent q ltac:(lia)) (fun c => x (c - (i - P))%Z)).
      apply (all_equal x 0 (Z.to_nat P)); [|lia]. intros c Hc.
      specialize (Q ltac:(intros u; rewrite <- (V u); replace (i - Z.of_nat (S q))%Z with (0 + (i - P))%Z by lia;
        replace (Z.of_nat (S q)) with P by lia; rewrite <- zseq_shift, rsum_map; apply rsum_ext; intros a' _; f_equal; [f_equal|f_equal]; lia)).
      specialize (Q (i - P + c)%Z ltac:(lia)). cbv beta in Q. replace (i - P + c - (i - P))%Z with c in Q by lia. replace (i - P + c - 1 - (i - P))%Z with (c - 1)%Z in Q by lia. exact Q.
    Qed.
  End Points.
End Independent.
