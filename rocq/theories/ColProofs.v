(** Lemmas about collocation points and the functions tabulated there. *)
From Coq Require Import ZArith List Bool Lia Reals Lra Psatz.
From Coq Require Import ZifyBool ZifyNat.
From Coquelicot Require Import Coquelicot.
From Verif Require Import Prelude RealOrd AxisModel AxisSpec AxisProofs AxisProofs2 SetupModel SetupProofs SetupProps CollocProofs
  RuleModel TabModel BasModel BasSpec BasProofs BasProofs2 BasProofs3 BasProps ColModel.
Import ListNotations.
Open Scope R_scope.

(** ** B-splines are positive inside their support *)
Section Positive.
  Variables (U : Z -> R) (i P : Z).
  Hypothesis Hs : forall a b, (i - P + 1 <= a)%Z -> (a <= b)%Z -> (b <= i + P)%Z -> U a <= U b.
  Hypothesis Hi : U i < U (i+1)%Z.
  Hypothesis HP : (0 <= P)%Z.
  Notation N := (bspline_piece U i).

  Lemma termA_nonneg q c u : (Z.of_nat (S q) <= P)%Z -> U i <= u <= U (i+1)%Z ->
    0 <= frac ((u - U c) * N q c u) (U (c + Z.of_nat (S q))%Z - U c).
  Proof.
    intros Hq Hu.
    destruct (Z_lt_dec c (i - Z.of_nat q)); [rewrite piece_zero, Rmult_0_r, frac_0 by lia; lra|].
    destruct (Z_lt_dec i c); [rewrite piece_zero, Rmult_0_r, frac_0 by lia; lra|].
    pose proof (knots_lt U i P Hs Hi HP c (c + Z.of_nat (S q))%Z ltac:(lia) ltac:(lia) ltac:(lia) ltac:(lia)).
    pose proof (Hs c i ltac:(lia) ltac:(lia) ltac:(lia)).
    rewrite frac_nz by lra. apply Rmult_le_pos; [apply Rmult_le_pos; [lra|apply (piece_nonneg U i P); auto; lia]|].
    left. apply Rinv_0_lt_compat. lra.
  Qed.
  Lemma termB_nonneg q c u : (Z.of_nat (S q) <= P)%Z -> U i <= u <= U (i+1)%Z ->
    0 <= frac ((U (c + Z.of_nat (S q) + 1)%Z - u) * N q (c+1)%Z u) (U (c + Z.of_nat (S q) + 1)%Z - U (c+1)%Z).
  Proof.
    intros Hq Hu.
    destruct (Z_lt_dec (c+1) (i - Z.of_nat q)); [rewrite piece_zero, Rmult_0_r, frac_0 by lia; lra|].
    destruct (Z_lt_dec i (c+1)); [rewrite piece_zero, Rmult_0_r, frac_0 by lia; lra|].
    pose proof (knots_lt U i P Hs Hi HP (c+1)%Z (c + Z.of_nat (S q) + 1)%Z ltac:(lia) ltac:(lia) ltac:(lia) ltac:(lia)).
    pose proof (Hs (i+1)%Z (c + Z.of_nat (S q) + 1)%Z ltac:(lia) ltac:(lia) ltac:(lia)).
    rewrite frac_nz by lra. apply Rmult_le_pos; [apply Rmult_le_pos; [lra|apply (piece_nonneg U i P); auto; lia]|].
    left. apply Rinv_0_lt_compat. lra.
  Qed.

  Lemma piece_pos_left q : (Z.of_nat q <= P)%Z -> forall c u, (i - Z.of_nat q <= c <= i)%Z -> U i <= u < U (i+1)%Z ->
    (U c < u \/ c = (i - Z.of_nat q)%Z) -> 0 < N q c u.
  Proof.
    induction q as [|q IH]; intros Hq c u Hc Hu Hor.
    - unfold bspline_piece, bsp, piece. destruct (Z.eq_dec c i); [lra|lia].
    - rewrite piece_S. destruct (Z_le_dec (i - Z.of_nat q) c) as [L|L].
      + assert (Hcu : U c < u) by (destruct Hor; [auto|lia]).
        pose proof (termB_nonneg q c u Hq ltac:(lra)) as TB.
        pose proof (knots_lt U i P Hs Hi HP c (c + Z.of_nat (S q))%Z ltac:(lia) ltac:(lia) ltac:(lia) ltac:(lia)) as K.
        assert (0 < frac ((u - U c) * N q c u) (U (c + Z.of_nat (S q))%Z - U c)).
        { rewrite frac_nz by lra. apply Rdiv_lt_0_compat; [|lra]. apply Rmult_lt_0_compat; [lra|]. apply IH; auto; lia. }
        lra.
      + assert (E : c = (i - Z.of_nat (S q))%Z) by lia.
        pose proof (termA_nonneg q c u Hq ltac:(lra)) as TA.
        pose proof (knots_lt U i P Hs Hi HP (c+1)%Z (c + Z.of_nat (S q) + 1)%Z ltac:(lia) ltac:(lia) ltac:(lia) ltac:(lia)) as K.
        assert (0 < frac ((U (c + Z.of_nat (S q) + 1)%Z - u) * N q (c+1)%Z u) (U (c + Z.of_nat (S q) + 1)%Z - U (c+1)%Z)).
        { rewrite frac_nz by lra. apply Rdiv_lt_0_compat; [|lra]. replace (c + Z.of_nat (S q) + 1)%Z with (i+1)%Z by lia.
          apply Rmult_lt_0_compat; [lra|]. apply IH; [lia|lia|auto|right; lia]. }
        lra.
  Qed.
  Lemma piece_pos_right q : (Z.of_nat q <= P)%Z -> forall c u, (i - Z.of_nat q <= c <= i)%Z -> U i < u <= U (i+1)%Z ->
    (u < U (c + Z.of_nat q + 1)%Z \/ c = i) -> 0 < N q c u.
  Proof.
    induction q as [|q IH]; intros Hq c u Hc Hu Hor.
    - unfold bspline_piece, bsp, piece. destruct (Z.eq_dec c i); [lra|lia].
    - rewrite piece_S. destruct (Z.eq_dec c i) as [E|E].
      + pose proof (termB_nonneg q c u Hq ltac:(lra)) as TB.
        pose proof (knots_lt U i P Hs Hi HP c (c + Z.of_nat (S q))%Z ltac:(lia) ltac:(lia) ltac:(lia) ltac:(lia)) as K.
        assert (0 < frac ((u - U c) * N q c u) (U (c + Z.of_nat (S q))%Z - U c)).
        { rewrite frac_nz by lra. apply Rdiv_lt_0_compat; [|lra]. apply Rmult_lt_0_compat; [rewrite E; lra|].
          apply IH; auto; lia. }
        lra.
      + assert (Hcu : u < U (c + Z.of_nat (S q) + 1)%Z) by (destruct Hor; [auto|lia]).
        pose proof (termA_nonneg q c u Hq ltac:(lra)) as TA.
        pose proof (knots_lt U i P Hs Hi HP (c+1)%Z (c + Z.of_nat (S q) + 1)%Z ltac:(lia) ltac:(lia) ltac:(lia) ltac:(lia)) as K.
        assert (0 < frac ((U (c + Z.of_nat (S q) + 1)%Z - u) * N q (c+1)%Z u) (U (c + Z.of_nat (S q) + 1)%Z - U (c+1)%Z)).
        { rewrite frac_nz by lra. apply Rdiv_lt_0_compat; [|lra].
          apply Rmult_lt_0_compat; [lra|]. apply IH; [lia|lia|auto|left].
          replace (c + 1 + Z.of_nat q + 1)%Z with (c + Z.of_nat (S q) + 1)%Z by lia. auto. }
        lra.
  Qed.
End Positive.

(** ** Greville abscissae *)
Section Greville.
  Variables (p m : Z) (U : Z -> R).
  Hypothesis HV : valid_knots (O:=Rord) p m U.
  Let n := (m - p - 1)%Z.

  Lemma wsum_extreme_low : forall f c k, (0 <= k)%Z -> (forall j, (0 <= j < k)%Z -> c <= f j) ->
    wsum f k <= IZR k * c -> forall j, (0 <= j < k)%Z -> f j = c.
  Proof.
    intros f c k Hk. pattern k. apply natlike_ind; [intros; lia| |exact Hk].
    intros x Hx IH H Hsm j Hj. unfold Z.succ in *. rewrite wsum_S, plus_IZR in Hsm by lia.
    assert (c <= f x) by (apply H; lia).
    assert (IZR x * c <= wsum f x).
    { rewrite <- wsum_const by lia. apply wsum_le; auto. intros; apply H; lia. }
    destruct (Z.eq_dec j x) as [->|]; [lra|]. apply IH; try lia; [intros; apply H; lia|lra].
  Qed.

  Lemma no_block : forall i v, (1 <= i)%Z -> (i + p <= m - 1)%Z -> (forall x, (i <= x <= i + p)%Z -> U x = v) -> False.
  Proof.
    intros i v Hi Him H. pose proof HV as (Hp & Hm & Hnd & Hc). specialize (Hc v).
    assert (HH : (Z.of_nat (length (zseq i (p+1))) <= count_eq (O:=Rord) U 1 (m-1) v)%Z).
    { unfold count_eq. apply inj_le. apply NoDup_incl_length; [apply NoDup_zseq|].
      intros x Hx. apply in_zseq in Hx. apply filter_In. split; [apply in_zseq; lia|].
      apply keqb_spec, keq_R. apply H. lia. }
    rewrite length_zseq in HH. lia.
  Qed.

  Lemma greville_gt : forall i, (1 <= i)%Z -> (i + p <= m - 1)%Z -> U i < greville i p U.
  Proof.
    intros i Hi Him. pose proof HV as (Hp & Hm & Hnd & Hc). pose proof (p_pos p m U HV) as Hpp.
    destruct (greville_bounds p m U HV i ltac:(lia) ltac:(lia)) as [HB _].
    assert (Hle : U i <= U (i+1)%Z) by (apply (U_mono p m U HV); lia).
    destruct (Rle_lt_dec (greville i p U) (U i)) as [Hge|]; auto. exfalso.
    assert (Hall : forall j, (0 <= j < p)%Z -> U (i+j+1)%Z = U i).
    { apply (wsum_extreme_low (fun j => U (i+j+1)%Z)); [lia| |].
      - intros j Hj. apply (U_mono p m U HV); lia.
      - rewrite greville_eq in Hge by lia.
        apply Rmult_le_compat_l with (r := IZR p) in Hge; [|lra].
        replace (IZR p * (wsum (fun j => U (i+j+1)%Z) p / IZR p)) with (wsum (fun j => U (i+j+1)%Z) p) in Hge by (field; lra).
        exact Hge. }
    apply (no_block i (U i) Hi Him). intros x Hx. destruct (Z.eq_dec x i) as [->|]; auto.
    replace x with (i + (x-i-1) + 1)%Z by lia. apply Hall. lia.
  Qed.

  (** strictly increasing *)
  Lemma wsum_shift : forall f k, (0 <= k)%Z -> wsum (fun j => f (j+1)%Z) k + f 0%Z = wsum f k + f k.
  Proof.
    intros f k Hk. pattern k. apply natlike_ind; [rewrite !wsum_0; lra| |exact Hk].
    intros x Hx IH. unfold Z.succ. rewrite !wsum_S by lia. lra.
  Qed.
  Lemma greville_step : forall i, (0 <= i)%Z -> (i + p + 1 <= m - 1)%Z -> greville i p U < greville (i+1) p U.
  Proof.
    intros i Hi Him. pose proof HV as (Hp & _). pose proof (p_pos p m U HV) as Hpp.
    rewrite !greville_eq by lia. unfold Rdiv. apply Rmult_lt_compat_r; [apply Rinv_0_lt_compat; auto|].
    pose proof (wsum_shift (fun j => U (i+j+1)%Z) p ltac:(lia)) as E. cbv beta in E.
    replace (wsum (fun j => U (i + 1 + j + 1)%Z) p) with (wsum (fun j => U (i + (j+1) + 1)%Z) p).
    2:{ unfold wsum. apply (f_equal (fun f => fold_left f (zseq 0 p) 0)).
        apply FunctionalExtensionality.functional_extensionality; intros s.
        apply FunctionalExtensionality.functional_extensionality; intros j. f_equal. f_equal. ring. }
    replace (i + 0 + 1)%Z with (i+1)%Z in E by lia.
    destruct (Rle_lt_dec (U (i+p+1)%Z) (U (i+1)%Z)) as [L|L]; [|lra]. exfalso.
    apply (no_block (i+1) (U (i+1)%Z)); [lia|lia|]. intros x Hx.
    pose proof (U_mono p m U HV (i+1) x ltac:(lia) ltac:(lia) ltac:(lia)).
    pose proof (U_mono p m U HV x (i+p+1) ltac:(lia) ltac:(lia) ltac:(lia)). lra.
  Qed.
  Lemma greville_strict : forall i j, (0 <= i)%Z -> (i < j)%Z -> (j <= n)%Z -> greville i p U < greville j p U.
  Proof.
    intros i j Hi Hij Hj. assert (Hp : (1 <= p)%Z) by (destruct HV; auto).
    pose proof (greville_step i Hi ltac:(unfold n in *; lia)).
    pose proof (greville_mono p m U HV (i+1) j ltac:(lia) ltac:(lia) ltac:(unfold n in *; lia)). lra.
  Qed.

  (** the span found for a point of the domain *)
  Lemma span_of_some : forall u, find_span (O:=Rord) n p u U = Some (span_of p m U u).
  Proof.
    intros u. pose proof HV as (Hp & Hm & _). unfold span_of. fold n.
    destruct (find_span_spec (O:=Rord) n p u U ltac:(unfold n; lia)) as (k & E & _). rewrite E. reflexivity.
  Qed.
  Lemma span_of_domain : forall u, ends_nonempty (O:=Rord) p m U -> U p <= u <= U (m-p)%Z ->
    (p <= span_of p m U u <= n)%Z /\ U (span_of p m U u) < U (span_of p m U u + 1)%Z /\
    (U (span_of p m U u) <= u < U (span_of p m U u + 1)%Z \/ (u = U (m-p)%Z /\ span_of p m U u = n)).
  Proof.
    intros u [E1 E2] Hu. apply (proj1 (klt_R _ _)) in E1. apply (proj1 (klt_R _ _)) in E2.
    destruct (find_span_cases p m U HV u _ (span_of_some u)) as [B C]. fold n in B, C, E2.
    replace (n+1)%Z with (m-p)%Z in C by (unfold n; lia).
    set (k := span_of p m U u) in *. clearbody k. split; [auto|].
    destruct C as [[C1 C2]|[(C1 & C2 & C3)|(C1 & C2 & C3)]].
    - subst k. split; [auto|]. left. lra.
    - subst k. replace (n+1)%Z with (m-p)%Z by (unfold n; lia). split; [auto|]. right. split; [lra|auto].
    - split; [lra|]. left. auto.
  Qed.

  (** the function collocated at a point is positive there *)
  Lemma own_positive : forall j, ends_nonempty (O:=Rord) p m U -> (0 <= j <= n)%Z ->
    U p <= greville j p U <= U (m-p)%Z ->
    let k := span_of p m U (greville j p U) in
    (k - p <= j <= k)%Z /\ 0 < bspline_piece U k (Z.to_nat p) j (greville j p U).
  Proof.
    intros j He Hj Hd k. pose proof HV as (Hp & Hm & Hnd & _).
    pose proof (greville_span p m U HV j k He ltac:(fold n; lia) (span_of_some _)) as HA. unfold active in HA.
    destruct (span_of_domain _ He Hd) as (Hk & Hne & Hcase). fold k in Hk, Hne, Hcase.
    split; [lia|].
    assert (Hs : forall a b, (k - p + 1 <= a)%Z -> (a <= b)%Z -> (b <= k + p)%Z -> U a <= U b).
    { intros a b Ha Hab Hb. apply (U_mono p m U HV); unfold n in *; lia. }
    destruct Hcase as [Hc|[Hc Hkn]].
    - apply (piece_pos_left U k p Hs Hne ltac:(lia) (Z.to_nat p)); [lia|lia|auto|].
      destruct (Z.eq_dec j 0) as [->|Hj0]; [right; lia|]. left. apply greville_gt; unfold n in *; lia.
    - apply (piece_pos_right U k p Hs Hne ltac:(lia) (Z.to_nat p)); [lia|lia| |].
      + rewrite Hkn in *. replace (n+1)%Z with (m-p)%Z in * by (unfold n; lia). lra.
      + destruct (Z.eq_dec j k) as [|Hjk]; [right; auto|left]. rewrite Z2Nat.id by lia.
        apply (greville_lt p m U HV); unfold n in *; lia.
  Qed.
End Greville.
