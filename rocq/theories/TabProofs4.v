(** Fields that vanish at the points of an element, and grids of overlapping elements. *)
From Coq Require Import ZArith List Bool Lia Reals Lra.
From Coq Require Import ZifyBool ZifyNat.
From Coquelicot Require Import Coquelicot.
From Verif Require Import Prelude RealOrd AxisModel AxisSpec SetupModel SetupProofs SetupProps MatProofs GridSpec GridProofs
  BasModel BasSpec BasProofs BasProps MapProofs TabPoly TabProofs TabProofs3.
From Verif Require Import ElemSpec Box.
Import ListNotations.
Open Scope R_scope.

(** * Tensor products of tables *)
(** Every vector whose combination of the functions C vanishes at all points satisfies the equations l. *)
Definition solves (n nq : Z) (C : Z -> Z -> R) (l : Z -> Z -> R) : Prop :=
  forall x : Z -> R, (forall q, (0 <= q < nq)%Z -> rsum (fun a => x a * C a q) (zseq 0 n) = 0) ->
  forall a, (0 <= a < n)%Z -> rsum (fun b => l a b * x b) (zseq 0 n) = 0.
Definition delta (a b : Z) : R := if (a =? b)%Z then 1 else 0.
Definition delta0 (a b : Z) : R := delta a b - delta 0 b.

Lemma rsum_delta n x a : (0 <= a < n)%Z -> rsum (fun b => delta a b * x b) (zseq 0 n) = x a.
Proof.
  intros Ha. rewrite (rsum_single _ _ _ a); [unfold delta; rewrite Z.eqb_refl; ring|apply NoDup_zseq|apply in_zseq; lia|].
  intros b _ Hb. unfold delta. replace (a =? b)%Z with false by lia. ring.
Qed.
Lemma solves_delta n nq C : (forall x, (forall q, (0 <= q < nq)%Z -> rsum (fun a => x a * C a q) (zseq 0 n) = 0) -> forall a, (0 <= a < n)%Z -> x a = 0) -> solves n nq C delta.
Proof. intros H x Hx a Ha. rewrite rsum_delta by auto. apply H; auto. Qed.
Lemma solves_delta0 n nq C : (forall x, (forall q, (0 <= q < nq)%Z -> rsum (fun a => x a * C a q) (zseq 0 n) = 0) -> forall a, (0 <= a < n)%Z -> x a = x 0%Z) -> solves n nq C delta0.
Proof.
  intros H x Hx a Ha. rewrite (rsum_ext _ _ (fun b => delta a b * x b + (-1) * (delta 0 b * x b))) by (intros; unfold delta0; ring).
  rewrite rsum_plus, rsum_scal. rewrite !rsum_delta by lia. rewrite (H x Hx a Ha). ring.
Qed.

Section Tensor.
  Variables n nq : Z -> Z.
  Variable C l : Z -> Z -> Z -> R.
  Hypothesis S : forall i, (0 <= i < 3)%Z -> solves (n i) (nq i) (C i) (l i).
  Local Notation prod f al bt := (f 0%Z (coord al 0) (coord bt 0) * f 1%Z (coord al 1) (coord bt 1) * f 2%Z (coord al 2) (coord bt 2)).

  Lemma tensor_solves (y : triple -> R) :
    (forall t, in_box zero3 nq t -> rsum (fun al => y al * prod C al t) (box zero3 n) = 0) ->
    forall al, in_box zero3 n al -> rsum (fun bt => prod l al bt * y bt) (box zero3 n) = 0.
  Proof.
    intros H al Hal. destruct al as [[a0 a1] a2]. destruct Hal as (A0 & A1 & A2). unfold zero3 in *. change (coord (a0,a1,a2) 0) with a0. change (coord (a0,a1,a2) 1) with a1. change (coord (a0,a1,a2) 2) with a2.
    assert (K0 : forall q1 q2, (0 <= q1 < nq 1)%Z -> (0 <= q2 < nq 2)%Z ->
       rsum (fun b0 => l 0%Z a0 b0 * rsum (fun b2 => rsum (fun b1 => y (b0,b1,b2) * C 1%Z b1 q1 * C 2%Z b2 q2) (zseq 0 (n 1%Z))) (zseq 0 (n 2%Z))) (zseq 0 (n 0%Z)) = 0).
    { intros q1 q2 H1 H2. apply (S 0%Z ltac:(lia) (fun b0 => rsum (fun b2 => rsum (fun b1 => y (b0,b1,b2) * C 1%Z b1 q1 * C 2%Z b2 q2) (zseq 0 (n 1%Z))) (zseq 0 (n 2%Z)))); [|lia].
      intros q0 H0. specialize (H (q0,q1,q2) ltac:(unfold in_box, zero3; lia)). rewrite rsum_box in H.
      etransitivity; [|exact H]. 
      rewrite (rsum_ext _ _ (fun b0 => rsum (fun b2 => rsum (fun b1 => y (b0,b1,b2) * C 1%Z b1 q1 * C 2%Z b2 q2 * C 0%Z b0 q0) (zseq 0 (n 1%Z))) (zseq 0 (n 2%Z)))).
      2:{ intros b0 _. rewrite rsum_mult_r. apply rsum_ext. intros b2 _. rewrite rsum_mult_r. reflexivity. }
      rewrite rsum_comm. apply rsum_ext. intros b2 _. rewrite rsum_comm. apply rsum_ext. intros b1 _. apply rsum_ext. intros b0 _. unfold coord. zc. ring. }
    assert (K1 : forall q2, (0 <= q2 < nq 2)%Z ->
       rsum (fun b1 => l 1%Z a1 b1 * rsum (fun b0 => rsum (fun b2 => l 0%Z a0 b0 * y (b0,b1,b2) * C 2%Z b2 q2) (zseq 0 (n 2%Z))) (zseq 0 (n 0%Z))) (zseq 0 (n 1%Z)) = 0).
    { intros q2 H2. apply (S 1%Z ltac:(lia) (fun b1 => rsum (fun b0 => rsum (fun b2 => l 0%Z a0 b0 * y (b0,b1,b2) * C 2%Z b2 q2) (zseq 0 (n 2%Z))) (zseq 0 (n 0%Z)))); [|lia].
      intros q1 H1. etransitivity; [|exact (K0 q1 q2 H1 H2)].
      rewrite (rsum_ext _ _ (fun b1 => rsum (fun b0 => rsum (fun b2 => l 0%Z a0 b0 * y (b0,b1,b2) * C 2%Z b2 q2 * C 1%Z b1 q1) (zseq 0 (n 2%Z))) (zseq 0 (n 0%Z)))).
      2:{ intros b1 _. rewrite rsum_mult_r. apply rsum_ext. intros b0 _. rewrite rsum_mult_r. reflexivity. }
      rewrite rsum_comm. apply rsum_ext. intros b0 _. rewrite rsum_comm. rewrite <- rsum_scal. apply rsum_ext. intros b2 _. rewrite <- rsum_scal. apply rsum_ext. intros b1 _. ring. }
    rewrite rsum_box.
    rewrite (rsum_ext _ _ (fun b2 => l 2%Z a2 b2 * rsum (fun b1 => rsum (fun b0 => l 0%Z a0 b0 * l 1%Z a1 b1 * y (b0,b1,b2)) (zseq 0 (n 0%Z))) (zseq 0 (n 1%Z)))).
    2:{ intros b2 _. rewrite <- rsum_scal. apply rsum_ext. intros b1 _. rewrite <- rsum_scal. apply rsum_ext. intros b0 _. unfold coord. zc. ring. }
    apply (S 2%Z ltac:(lia) (fun b2 => rsum (fun b1 => rsum (fun b0 => l 0%Z a0 b0 * l 1%Z a1 b1 * y (b0,b1,b2)) (zseq 0 (n 0%Z))) (zseq 0 (n 1%Z)))); [|lia].
    intros q2 H2. etransitivity; [|exact (K1 q2 H2)].
    rewrite (rsum_ext _ _ (fun b2 => rsum (fun b1 => rsum (fun b0 => l 0%Z a0 b0 * l 1%Z a1 b1 * y (b0,b1,b2) * C 2%Z b2 q2) (zseq 0 (n 0%Z))) (zseq 0 (n 1%Z)))).
    2:{ intros b2 _. rewrite rsum_mult_r. apply rsum_ext. intros b1 _. rewrite rsum_mult_r. reflexivity. }
    rewrite rsum_comm. apply rsum_ext. intros b1 _. rewrite <- rsum_scal. rewrite rsum_comm. apply rsum_ext. intros b0 _. rewrite <- rsum_scal. apply rsum_ext. intros b2 _. ring.
  Qed.
End Tensor.

(** * One direction *)
Section OneDir.
  Variables (p m : Z) (U : Z -> R) (k nqp : Z) (u : Z -> R).
  Variable B : R -> Z -> Z -> R.
  Hypothesis Hnd : nondecreasing (O:=Rord) m U.
  Hypothesis Hp : (0 <= p)%Z.
  Hypothesis Hk : (p <= k <= m-p-1)%Z.
  Hypothesis HU : U k < U (k+1)%Z.
  Hypothesis HB : forall v, exists ndu0 a0 ders0 l0 r0, forall o a, (0 <= a <= p)%Z -> B v o a = basis_bspline k v p (Z.min p 4) U ndu0 a0 ders0 l0 r0 o a.

  Lemma dir_sorted : forall a b, (k - p + 1 <= a)%Z -> (a <= b)%Z -> (b <= k + p)%Z -> U a <= U b.
  Proof. intros a b H1 H2 H3. apply kle_R. apply Hnd; lia. Qed.
  Lemma dir_value v a : (0 <= a <= p)%Z -> B v 0 a = bspline_piece U k (Z.to_nat p) (k-p+a) v.
  Proof.
    intros Ha. destruct (HB v) as (n0 & a0 & d0 & l0 & r0 & E). rewrite E by auto.
    destruct (C31_derivatives p m U k v n0 a0 d0 l0 r0 Hnd Hp Hk HU 0%Z ltac:(lia)) as (D & _). exact (eq_sym (D a Ha)).
  Qed.
  Lemma dir_deriv v a : (0 <= a <= p)%Z -> B v 1 a = Derive (bspline_piece U k (Z.to_nat p) (k-p+a)) v.
  Proof.
    intros Ha. destruct (HB v) as (n0 & a0 & d0 & l0 & r0 & E). rewrite E by auto.
    destruct (C31_derivatives p m U k v n0 a0 d0 l0 r0 Hnd Hp Hk HU 1%Z ltac:(lia)) as (D & _). symmetry. apply is_derive_unique.
    exact (D a Ha).
  Qed.
  Lemma dir_unity v : rsum (fun a => B v 0%Z a) (zseq 0 (p+1)) = 1.
  Proof.
    destruct (HB v) as (n0 & a0 & d0 & l0 & r0 & E).
    destruct (C30_values_are_bsplines p m U k v (Z.min p 4) n0 a0 d0 l0 r0 Hnd Hp Hk HU ltac:(lia)) as (_ & _ & _ & D). rewrite <- D.
    apply rsum_ext. intros a Ha. apply in_zseq in Ha. apply E. lia.
  Qed.
  Lemma dir_nonneg v a : U k <= v <= U (k+1)%Z -> (0 <= a <= p)%Z -> 0 <= B v 0 a.
  Proof.
    intros Hv Ha. destruct (HB v) as (n0 & a0 & d0 & l0 & r0 & E). rewrite E by auto.
    destruct (C30_values_are_bsplines p m U k v (Z.min p 4) n0 a0 d0 l0 r0 Hnd Hp Hk HU ltac:(lia)) as (_ & _ & D & _). apply D; auto.
  Qed.

  Hypothesis Hn : (p < nqp)%Z.
  Hypothesis Hu : NoDup (map u (zseq 0 nqp)).
  Lemma dir_solves_value : solves (p+1) nqp (fun a q => B (u q) 0 a) delta.
  Proof.
    apply solves_delta. intros x Hx a Ha.
    apply (points_independent U k p dir_sorted HU Hp (map u (zseq 0 nqp)) Hu); [rewrite map_length, length_zseq; lia| |lia].
    intros v Hv. apply in_map_iff in Hv. destruct Hv as (q & <- & Hq). apply in_zseq in Hq. rewrite <- (Hx q ltac:(lia)).
    apply rsum_ext. intros b Hb. apply in_zseq in Hb. rewrite dir_value by lia. reflexivity.
  Qed.
  Lemma dir_solves_deriv : solves (p+1) nqp (fun a q => B (u q) 1 a) delta0.
  Proof.
    apply solves_delta0. intros x Hx a Ha.
    apply (points_equal U k p dir_sorted HU Hp (map u (zseq 0 nqp)) Hu); [rewrite map_length, length_zseq; lia| |lia].
    intros v Hv. apply in_map_iff in Hv. destruct Hv as (q & <- & Hq). apply in_zseq in Hq. rewrite <- (Hx q ltac:(lia)).
    apply rsum_ext. intros b Hb. apply in_zseq in Hb. rewrite dir_deriv by lia. reflexivity.
  Qed.
End OneDir.

    Lemma chain (f : Z -> R) n : (forall s, (0 <= s)%Z -> (s + 1 < n)%Z -> f s = f (s+1)%Z) -> forall s, (0 <= s < n)%Z -> f s = f 0%Z.
    Proof.
      intros H s Hs. replace s with (Z.of_nat (Z.to_nat s)) by lia. assert (Hk : (Z.of_nat (Z.to_nat s) < n)%Z) by lia. revert Hk. generalize (Z.to_nat s). clear s Hs.
      induction n0 as [|k IH]; intros Hk; [reflexivity|]. rewrite <- IH by lia. replace (Z.of_nat (Datatypes.S k)) with (Z.of_nat k + 1)%Z by lia. symmetry. apply H; lia.
    Qed.
(** * Grids *)
Section Grid.
  Variable dim : Z.
  Variable axes : Z -> axis Rord.
  Hypothesis Hdim : (1 <= dim <= 3)%Z.
  Hypothesis Hax : forall i, (0 <= i < dim)%Z -> axis_ready (axes i) /\ ends_nonempty (ax_p (axes i)) (ax_m (axes i)) (ax_U (axes i)).
  Let N := fun d => if (d <? dim)%Z then ax_nnp (axes d) else 1%Z.
  Let nel := fun d => if (d <? dim)%Z then ax_nel (axes d) else 1%Z.
  Let nen := fun d => if (d <? dim)%Z then (ax_p (axes d) + 1)%Z else 1%Z.
  Let first := fun e d => if (d <? dim)%Z then (span_at (axes d) (coord e d) - ax_p (axes d))%Z else 0%Z.

  Lemma dir_cover d A : (0 <= d < 3)%Z -> (0 <= A < N d)%Z -> exists s a, (0 <= s < nel d)%Z /\ (0 <= a < nen d)%Z /\
    forall e, coord e d = s -> (first e d + a = A)%Z.
  Proof.
    intros Hd HA. unfold N, nel, nen, first in *. destruct (d <? dim)%Z eqn:L.
    - destruct (Hax d ltac:(lia)) as ((l & Hl & Hwf) & He). assert (W : wf (axes d) l) by (split; auto).
      destruct (wf_nnp (axes d) l W) as (sm & B1 & B2).
      destruct (active_somewhere (axes d) l W He A ltac:(destruct (ax_periodic (axes d)); lia)) as (k & Hk & Hact). destruct (span_at_surj (axes d) l W k Hk) as (s & Hs & Es).
      unfold active in Hact. exists s, (A - (k - ax_p (axes d)))%Z. split; [lia|]. split; [lia|]. intros e ->. rewrite Es. lia.
    - exists 0%Z, 0%Z. split; [lia|]. split; [lia|]. intros. lia.
  Qed.
  Lemma grid_cover t : in_box zero3 N t -> exists e a, In e (box zero3 nel) /\ In a (box zero3 nen) /\ elem_node N first e a = t.
  Proof.
    intros Ht. destruct t as [[t0 t1] t2]. destruct Ht as (T0 & T1 & T2). unfold zero3 in *.
    destruct (dir_cover 0 t0 ltac:(lia) ltac:(lia)) as (s0 & a0 & S0 & A0 & E0). destruct (dir_cover 1 t1 ltac:(lia) ltac:(lia)) as (s1 & a1 & S1 & A1 & E1).
    destruct (dir_cover 2 t2 ltac:(lia) ltac:(lia)) as (s2 & a2 & S2 & A2 & E2).
    exists (s0,s1,s2), (a0,a1,a2). split; [apply In_box; unfold in_box; lia|]. split; [apply In_box; unfold in_box; lia|].
    unfold elem_node, tadd. rewrite (E0 (s0,s1,s2) eq_refl), (E1 (s0,s1,s2) eq_refl), (E2 (s0,s1,s2) eq_refl). unfold modbox. rewrite !Z.mod_small by lia. reflexivity.
  Qed.

  (** Consecutive elements share a node. *)
  Lemma dir_overlap d s : (0 <= d < 3)%Z -> (0 <= s)%Z -> (s + 1 < nel d)%Z -> exists a b, (0 <= a < nen d)%Z /\ (0 <= b < nen d)%Z /\
    forall e e', coord e d = s -> coord e' d = (s+1)%Z -> (first e d + a = first e' d + b)%Z.
  Proof.
    intros Hd Hs Hs1. unfold nel, nen, first in *. destruct (d <? dim)%Z eqn:L; [|lia].
    destruct (Hax d ltac:(lia)) as ((l & Hl & Hwf) & He). assert (W : wf (axes d) l) by (split; auto).
    pose proof (span_at_step (axes d) l W s Hs Hs1) as S1. pose proof (span_at_gap (axes d) l W s (s+1)%Z Hs ltac:(lia) Hs1) as S2.
    destruct Hwf as ((Hp & _) & _).
    exists (ax_p (axes d)), (ax_p (axes d) + span_at (axes d) s - span_at (axes d) (s+1))%Z. split; [lia|]. split; [lia|]. intros e e' -> ->. lia.
  Qed.
  Section Connected.
    Variable y : triple -> R.
    Hypothesis Hy : forall e a, In e (box zero3 nel) -> In a (box zero3 nen) -> y (elem_node N first e a) = y (elem_node N first e (0,0,0)%Z).
    Let v := fun e => y (elem_node N first e (0,0,0)%Z).
    Lemma nen_ge d : (0 <= d < 3)%Z -> (1 <= nen d)%Z.
    Proof.
      intros Hd. unfold nen. destruct (d <? dim)%Z eqn:L; [|lia]. destruct (Hax d ltac:(lia)) as ((l & Hl & ((Hp & _) & _)) & He). lia.
    Qed.
    Lemma share e e' a b : In e (box zero3 nel) -> In e' (box zero3 nel) -> In a (box zero3 nen) -> In b (box zero3 nen) ->
      tadd (first e) a = tadd (first e') b -> v e = v e'.
    Proof. intros H1 H2 H3 H4 E. unfold v. rewrite <- (Hy e a H1 H3), <- (Hy e' b H2 H4). unfold elem_node. rewrite E. reflexivity. Qed.
    Lemma step0 s j k : in_box zero3 nel ((s+1)%Z, j, k) -> (0 <= s)%Z -> v (s, j, k) = v ((s+1)%Z, j, k).
    Proof.
      intros (A & B & C) Hs. unfold zero3 in *. destruct (dir_overlap 0 s ltac:(lia) Hs ltac:(lia)) as (a & b & Ha & Hb & E).
      pose proof (nen_ge 1 ltac:(lia)). pose proof (nen_ge 2 ltac:(lia)).
      apply (share _ _ (a,0,0)%Z (b,0,0)%Z); try (apply In_box; unfold in_box, zero3; lia). unfold tadd.
      rewrite (E (s,j,k) ((s+1)%Z,j,k) eq_refl eq_refl). reflexivity.
    Qed.
    Lemma step1 s i k : in_box zero3 nel (i, (s+1)%Z, k) -> (0 <= s)%Z -> v (i, s, k) = v (i, (s+1)%Z, k).
    Proof.
      intros (A & B & C) Hs. unfold zero3 in *. destruct (dir_overlap 1 s ltac:(lia) Hs ltac:(lia)) as (a & b & Ha & Hb & E).
      pose proof (nen_ge 0 ltac:(lia)). pose proof (nen_ge 2 ltac:(lia)).
      apply (share _ _ (0,a,0)%Z (0,b,0)%Z); try (apply In_box; unfold in_box, zero3; lia). unfold tadd.
      rewrite (E (i,s,k) (i,(s+1)%Z,k) eq_refl eq_refl). reflexivity.
    Qed.
    Lemma step2 s i j : in_box zero3 nel (i, j, (s+1)%Z) -> (0 <= s)%Z -> v (i, j, s) = v (i, j, (s+1)%Z).
    Proof.
      intros (A & B & C) Hs. unfold zero3 in *. destruct (dir_overlap 2 s ltac:(lia) Hs ltac:(lia)) as (a & b & Ha & Hb & E).
      pose proof (nen_ge 0 ltac:(lia)). pose proof (nen_ge 1 ltac:(lia)).
      apply (share _ _ (0,0,a)%Z (0,0,b)%Z); try (apply In_box; unfold in_box, zero3; lia). unfold tadd.
      rewrite (E (i,j,s) (i,j,(s+1)%Z) eq_refl eq_refl). reflexivity.
    Qed.
    Lemma all_elements e : In e (box zero3 nel) -> v e = v (0,0,0)%Z.
    Proof.
      intros He. apply In_box in He. destruct e as [[i j] k]. destruct He as (A & B & C). unfold zero3 in *.
      transitivity (v (0%Z, j, k)); [|transitivity (v (0%Z, 0%Z, k))].
      - apply (chain (fun s => v (s, j, k)) (nel 0)); [|lia]. intros s H1 H2. apply step0; auto. unfold in_box, zero3. lia.
      - apply (chain (fun s => v (0%Z, s, k)) (nel 1)); [|lia]. intros s H1 H2. apply step1; auto. unfold in_box, zero3. lia.
      - apply (chain (fun s => v (0%Z, 0%Z, s)) (nel 2)); [|lia]. intros s H1 H2. apply step2; auto. unfold in_box, zero3. lia.
    Qed.
    Lemma all_nodes t u : in_box zero3 N t -> in_box zero3 N u -> y t = y u.
    Proof.
      assert (K : forall t, in_box zero3 N t -> y t = v (0,0,0)%Z).
      { intros t' Ht. destruct (grid_cover t' Ht) as (e & a & He & Ha & <-). rewrite (Hy e a He Ha). apply all_elements; auto. }
      intros Ht Hu. rewrite (K t Ht), (K u Hu). reflexivity.
    Qed.
  End Connected.
End Grid.
