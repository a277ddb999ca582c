(** B-spline pieces: support, partition of unity, sign, derivatives. *)
From Coq Require Import ZArith List Bool Lia Reals Lra Psatz Factorial.
From Coq Require Import ZifyBool ZifyNat.
From Coquelicot Require Import Coquelicot.
From Verif Require Import Prelude RealOrd AxisInitModel AxisInitProofs ElemModel Box GridSpec GridProofs BasModel BasSpec.
Import ListNotations.
Open Scope R_scope.

Lemma frac_0 d : frac 0 d = 0.
Proof. unfold frac. destruct (Req_EM_T d 0); auto. unfold Rdiv. ring. Qed.
Lemma frac_nz x d : d <> 0 -> frac x d = x / d.
Proof. intros H. unfold frac. destruct (Req_EM_T d 0); auto. contradiction. Qed.
Lemma frac_z x : frac x 0 = 0.
Proof. unfold frac. destruct (Req_EM_T 0 0); auto. exfalso; apply n; auto. Qed.

Section Pieces.
  Variables (U : Z -> R) (i P : Z).
  (** knots i-P+1 .. i+P are sorted and span i is not empty *)
  Hypothesis Hs : forall a b, (i - P + 1 <= a)%Z -> (a <= b)%Z -> (b <= i + P)%Z -> U a <= U b.
  Hypothesis Hi : U i < U (i+1)%Z.
  Hypothesis HP : (0 <= P)%Z.

  Notation N := (bspline_piece U i).

  Lemma piece_S q c u : N (S q) c u =
    frac ((u - U c) * N q c u) (U (c + Z.of_nat (S q))%Z - U c)
    + frac ((U (c + Z.of_nat (S q) + 1)%Z - u) * N q (c+1)%Z u) (U (c + Z.of_nat (S q) + 1)%Z - U (c+1)%Z).
  Proof. reflexivity. Qed.

  Lemma piece_zero q : forall c u, (c < i - Z.of_nat q \/ i < c)%Z -> N q c u = 0.
  Proof using U i.
    clear Hs Hi HP P.
    induction q as [|q IH]; intros c u H.
    - unfold bspline_piece, bsp, piece. destruct (Z.eq_dec c i); auto. lia.
    - rewrite piece_S, (IH c), (IH (c+1)%Z) by lia. rewrite !Rmult_0_r, !frac_0. ring.
  Qed.

  (** knots on both sides of span i differ *)
  Lemma knots_lt a b : (i - P + 1 <= a)%Z -> (a <= i)%Z -> (i + 1 <= b)%Z -> (b <= i + P)%Z -> U a < U b.
  Proof. intros. pose proof (Hs a i ltac:(lia) ltac:(lia) ltac:(lia)). pose proof (Hs (i+1)%Z b ltac:(lia) ltac:(lia) ltac:(lia)). lra. Qed.

  Lemma piece_nonneg q : (Z.of_nat q <= P)%Z -> forall c u, U i <= u <= U (i+1)%Z -> 0 <= N q c u.
  Proof.
    induction q as [|q IH]; intros Hq c u Hu.
    - unfold bspline_piece, bsp, piece. destruct (Z.eq_dec c i); lra.
    - rewrite piece_S.
      assert (A : 0 <= frac ((u - U c) * N q c u) (U (c + Z.of_nat (S q))%Z - U c)).
      { destruct (Z_lt_dec c (i - Z.of_nat q)); [rewrite piece_zero, Rmult_0_r, frac_0 by lia; lra|].
        destruct (Z_lt_dec i c); [rewrite piece_zero, Rmult_0_r, frac_0 by lia; lra|].
        pose proof (knots_lt c (c + Z.of_nat (S q))%Z ltac:(lia) ltac:(lia) ltac:(lia) ltac:(lia)).
        pose proof (Hs c i ltac:(lia) ltac:(lia) ltac:(lia)).
        rewrite frac_nz by lra. apply Rmult_le_pos; [apply Rmult_le_pos; [lra|apply IH; auto; lia]|]. left. apply Rinv_0_lt_compat. lra. }
      assert (B : 0 <= frac ((U (c + Z.of_nat (S q) + 1)%Z - u) * N q (c+1)%Z u) (U (c + Z.of_nat (S q) + 1)%Z - U (c+1)%Z)).
      { destruct (Z_lt_dec (c+1) (i - Z.of_nat q)); [rewrite piece_zero, Rmult_0_r, frac_0 by lia; lra|].
        destruct (Z_lt_dec i (c+1)); [rewrite piece_zero, Rmult_0_r, frac_0 by lia; lra|].
        pose proof (knots_lt (c+1)%Z (c + Z.of_nat (S q) + 1)%Z ltac:(lia) ltac:(lia) ltac:(lia) ltac:(lia)).
        pose proof (Hs (i+1)%Z (c + Z.of_nat (S q) + 1)%Z ltac:(lia) ltac:(lia) ltac:(lia)).
        rewrite frac_nz by lra. apply Rmult_le_pos; [apply Rmult_le_pos; [lra|apply IH; auto; lia]|]. left. apply Rinv_0_lt_compat. lra. }
      lra.
  Qed.

  Lemma piece_unity q : (Z.of_nat q <= P)%Z -> forall u,
    rsum (fun c => N q c u) (zseq (i - Z.of_nat q) (Z.of_nat q + 1)) = 1.
  Proof.
    induction q as [|q IH]; intros Hq u.
    - rewrite zseq_cons, zseq_nil by lia. change (Z.of_nat 0) with 0%Z. rewrite Z.sub_0_r, rsum_cons. change (rsum (fun c => N 0 c u) []) with 0.
      unfold bspline_piece, bsp, piece. destruct (Z.eq_dec i i) as [E|E]; [lra|congruence].
    - set (G := fun c => frac ((u - U c) * N q c u) (U (c + Z.of_nat (S q))%Z - U c)).
      set (H := fun c => frac ((U (c + Z.of_nat (S q))%Z - u) * N q c u) (U (c + Z.of_nat (S q))%Z - U c)).
      rewrite (rsum_ext _ _ (fun c => G c + H (c+1)%Z)).
      2:{ intros c _. rewrite piece_S. unfold G, H. replace (c + 1 + Z.of_nat (S q))%Z with (c + Z.of_nat (S q) + 1)%Z by lia. reflexivity. }
      rewrite rsum_plus.
      rewrite (zseq_cons (i - Z.of_nat (S q))) at 1 by lia. rewrite rsum_cons.
      assert (G0 : G (i - Z.of_nat (S q))%Z = 0) by (unfold G; rewrite piece_zero, Rmult_0_r, frac_0 by lia; auto).
      rewrite G0, Rplus_0_l.
      rewrite <- (rsum_map _ _ H (fun c => (c+1)%Z)).
      replace (map (fun c => (c+1)%Z) (zseq (i - Z.of_nat (S q)) (Z.of_nat (S q) + 1))) with (zseq (i - Z.of_nat q) (Z.of_nat q + 1) ++ [(i+1)%Z]).
      2:{ replace (Z.of_nat (S q) + 1)%Z with (Z.of_nat q + 1 + 1)%Z by lia.
          replace (i+1)%Z with (i - Z.of_nat q + (Z.of_nat q + 1))%Z by lia. rewrite <- zseq_snoc by lia.
          unfold zseq. rewrite map_map. apply map_ext. intros; lia. }
      rewrite rsum_app, (rsum_cons _ H). replace (H (i+1)%Z) with 0.
      2:{ unfold H. rewrite piece_zero, Rmult_0_r, frac_0 by lia. auto. }
      replace (i - Z.of_nat (S q) + 1)%Z with (i - Z.of_nat q)%Z by lia. replace (Z.of_nat (S q) + 1 - 1)%Z with (Z.of_nat q + 1)%Z by lia.
      assert (Z0 : rsum H [] = 0) by reflexivity. rewrite Z0, !Rplus_0_r, <- rsum_plus.
      rewrite <- (IH ltac:(lia) u). apply rsum_ext. intros c Hc. apply in_zseq in Hc. unfold G, H.
      pose proof (knots_lt c (c + Z.of_nat (S q))%Z ltac:(lia) ltac:(lia) ltac:(lia) ltac:(lia)).
      rewrite !frac_nz by lra. field. lra.
  Qed.

  (** derivative of a piece of degree q+1 *)
  Definition dpiece (q : nat) (c : Z) (u : R) : R :=
    INR (S q) * (frac (N q c u) (U (c + Z.of_nat (S q))%Z - U c) - frac (N q (c+1)%Z u) (U (c + Z.of_nat (S q) + 1)%Z - U (c+1)%Z)).

  Lemma is_derive_frac (f : R -> R) d u l : is_derive f u l -> is_derive (fun v => frac (f v) d) u (frac l d).
  Proof.
    intros H. unfold frac. destruct (Req_EM_T d 0); [exact (is_derive_const 0 u)|].
    apply (is_derive_ext (fun v => / d * f v)); [intros; unfold Rdiv; apply Rmult_comm|].
    unfold Rdiv. rewrite Rmult_comm. apply (is_derive_scal f u (/ d) l). exact H.
  Qed.

  Lemma derive_up (f : R -> R) a u l : is_derive f u l -> is_derive (fun v => (v - a) * f v) u (f u + (u - a) * l).
  Proof.
    intros H. assert (D : is_derive (fun v => v - a) u 1) by (auto_derive; auto).
    pose proof (is_derive_mult (fun v => v - a) f u 1 l D H ltac:(intros; apply Rmult_comm)) as K.
    replace (f u + (u - a) * l) with (1 * f u + (u - a) * l) by ring. exact K.
  Qed.
  Lemma derive_dn (f : R -> R) a u l : is_derive f u l -> is_derive (fun v => (a - v) * f v) u (- f u + (a - u) * l).
  Proof.
    intros H. assert (D : is_derive (fun v => a - v) u (-1)) by (auto_derive; auto).
    pose proof (is_derive_mult (fun v => a - v) f u (-1) l D H ltac:(intros; apply Rmult_comm)) as K.
    replace (- f u + (a - u) * l) with ((-1) * f u + (a - u) * l) by ring. exact K.
  Qed.

  Lemma frac_lin x y d a b : frac (a * x + b * y) d = a * frac x d + b * frac y d.
  Proof. unfold frac. destruct (Req_EM_T d 0); [ring|field; auto]. Qed.

  Lemma derive_piece q : (Z.of_nat (S q) <= P)%Z -> forall c u,
    is_derive (N (S q) c) u (dpiece q c u).
  Proof.
    induction q as [|q IH]; intros Hq c u.
    - (* degree 1: the pieces of degree 0 are constants *)
      assert (D0 : forall c, is_derive (N 0 c) u 0) by (intros c0; exact (is_derive_const (piece i c0) u)).
      assert (K : is_derive (N 1 c) u (frac (N 0 c u + (u - U c) * 0) (U (c + 1)%Z - U c) + frac (- N 0 (c+1)%Z u + (U (c + 1 + 1)%Z - u) * 0) (U (c + 1 + 1)%Z - U (c+1)%Z))).
      { apply (is_derive_plus (fun v => frac ((v - U c) * N 0 c v) (U (c + 1)%Z - U c)) (fun v => frac ((U (c + 1 + 1)%Z - v) * N 0 (c+1)%Z v) (U (c + 1 + 1)%Z - U (c+1)%Z))).
        - apply is_derive_frac, derive_up, D0.
        - apply is_derive_frac, derive_dn, D0. }
      match type of K with is_derive _ _ ?l => replace (dpiece 0 c u) with l; [exact K|] end.
      unfold dpiece. change (Z.of_nat 1) with 1%Z. simpl INR.
      replace (N 0 c u + (u - U c) * 0) with (1 * N 0 c u + 0 * 0) by ring. replace (- N 0 (c+1)%Z u + (U (c + 1 + 1)%Z - u) * 0) with ((-1) * N 0 (c+1)%Z u + 0 * 0) by ring.
      rewrite !frac_lin. ring.
    - pose proof (IH ltac:(lia)) as D. set (s := Z.of_nat (S (S q))) in *.
      set (d1 := U (c + s)%Z - U c). set (d2 := U (c + s + 1)%Z - U (c+1)%Z).
      assert (K : is_derive (N (S (S q)) c) u
        (frac (N (S q) c u + (u - U c) * dpiece q c u) d1 + frac (- N (S q) (c+1)%Z u + (U (c+s+1)%Z - u) * dpiece q (c+1)%Z u) d2)).
      { apply (is_derive_plus (fun v => frac ((v - U c) * N (S q) c v) d1) (fun v => frac ((U (c + s + 1)%Z - v) * N (S q) (c+1)%Z v) d2)).
        - apply is_derive_frac, derive_up, D.
        - apply is_derive_frac, derive_dn, D. }
      match type of K with is_derive _ _ ?l => replace (dpiece (S q) c u) with l; [exact K|] end. clear K D.
      (* algebra *)
      set (A := frac (N q c u) (U (c + Z.of_nat (S q))%Z - U c)).
      set (B := frac (N q (c+1)%Z u) (U (c + s)%Z - U (c+1)%Z)).
      set (C := frac (N q (c+2)%Z u) (U (c + s + 1)%Z - U (c+2)%Z)).
      assert (E1 : dpiece q c u = INR (S q) * (A - B)).
      { unfold dpiece, A, B. replace (c + Z.of_nat (S q) + 1)%Z with (c + s)%Z by (unfold s; lia). reflexivity. }
      assert (E2 : dpiece q (c+1)%Z u = INR (S q) * (B - C)).
      { unfold dpiece, B, C. replace (c + 1 + Z.of_nat (S q))%Z with (c + s)%Z by (unfold s; lia).
        replace (c + 1 + 1)%Z with (c + 2)%Z by lia. reflexivity. }
      assert (F1 : N (S q) c u = (u - U c) * A + (U (c+s)%Z - u) * B).
      { rewrite piece_S. unfold A, B. replace (c + Z.of_nat (S q) + 1)%Z with (c + s)%Z by (unfold s; lia).
        rewrite <- (Rplus_0_r ((u - U c) * N q c u)), <- (Rplus_0_r ((U (c + s)%Z - u) * N q (c+1)%Z u)).
        replace 0 with (0 * 0) at 1 2 by ring. rewrite !frac_lin. ring. }
      assert (F2 : N (S q) (c+1)%Z u = (u - U (c+1)%Z) * B + (U (c+s+1)%Z - u) * C).
      { rewrite piece_S. unfold B, C. replace (c + 1 + Z.of_nat (S q))%Z with (c + s)%Z by (unfold s; lia).
        replace (c + 1 + 1)%Z with (c + 2)%Z by lia.
        rewrite <- (Rplus_0_r ((u - U (c+1)%Z) * N q (c+1)%Z u)), <- (Rplus_0_r ((U (c + s + 1)%Z - u) * N q (c+2)%Z u)).
        replace 0 with (0 * 0) at 1 2 by ring. rewrite !frac_lin. ring. }
      rewrite E1, E2. unfold dpiece. fold s d1 d2. rewrite (S_INR (S q)). set (m := INR (S q)).
      (* B = 0 when one of the denominators vanishes *)
      assert (G1 : N (S q) c u + (u - U c) * (m * (A - B)) = (m + 1) * N (S q) c u + (- (m * B)) * d1) by (rewrite F1; unfold d1; ring).
      assert (G2 : - N (S q) (c+1)%Z u + (U (c+s+1)%Z - u) * (m * (B - C)) = (- (m + 1)) * N (S q) (c+1)%Z u + (m * B) * d2) by (rewrite F2; unfold d2; ring).
      rewrite G1, G2, !frac_lin.
      assert (BZ : forall d, d = d1 \/ d = d2 -> frac d d * B = B).
      { intros d Hd. unfold frac at 1. destruct (Req_EM_T d 0) as [Z0|Z0]; [|field; auto].
        rewrite Rmult_0_l. unfold B.
        destruct (Z_lt_dec (c+1) (i - Z.of_nat q)); [rewrite piece_zero, frac_0 by lia; auto|].
        destruct (Z_lt_dec i (c+1)); [rewrite piece_zero, frac_0 by lia; auto|]. exfalso.
        pose proof (knots_lt (c+1)%Z (c+s)%Z ltac:(unfold s in *; lia) ltac:(lia) ltac:(unfold s in *; lia) ltac:(unfold s in *; lia)).
        destruct Hd as [-> | ->]; unfold d1, d2 in Z0.
        - pose proof (Hs c (c+1)%Z ltac:(unfold s in *; lia) ltac:(lia) ltac:(unfold s in *; lia)). lra.
        - pose proof (Hs (c+s)%Z (c+s+1)%Z ltac:(unfold s in *; lia) ltac:(lia) ltac:(unfold s in *; lia)). lra. }
      pose proof (BZ d1 (or_introl eq_refl)) as B1. pose proof (BZ d2 (or_intror eq_refl)) as B2.
      replace (- (m * B) * frac d1 d1) with (- m * (frac d1 d1 * B)) by ring. replace (m * B * frac d2 d2) with (m * (frac d2 d2 * B)) by ring.
      rewrite B1, B2. ring.
  Qed.
End Pieces.
