(** Collocation branch of IGASetUp_Stage1. *)
From Coq Require Import ZArith List Bool Lia Reals Lra Sorted.
From Coq Require Import ZifyBool ZifyNat.
From Verif Require Import Prelude RealOrd AxisModel AxisSpec AxisProofs AxisProofs2 PartModel PartSpec PartProofs SetupModel SetupProofs.
Import ListNotations.
Open Scope Z_scope.

(** ** sums over a window of knots *)
Definition wsum (f : Z -> R) (n : Z) : R := fold_left (fun u j => u + f j)%R (zseq 0 n) 0%R.

Lemma wsum_0 : forall f, wsum f 0 = 0%R. Proof. reflexivity. Qed.
Lemma wsum_S : forall f n, 0 <= n -> wsum f (n+1) = (wsum f n + f n)%R.
Proof.
  intros f n Hn. unfold wsum. rewrite (zseq_snoc 0 n) by lia. rewrite fold_left_app. cbn [fold_left].
  f_equal.
Qed.

Lemma wsum_le : forall f g n, 0 <= n -> (forall j, 0 <= j < n -> (f j <= g j)%R) -> (wsum f n <= wsum g n)%R.
Proof.
  intros f g n Hn. pattern n. apply natlike_ind; [intros; rewrite !wsum_0; lra| |exact Hn].
  intros x Hx IH H. unfold Z.succ. rewrite !wsum_S by lia.
  assert (f x <= g x)%R by (apply H; lia). assert (wsum f x <= wsum g x)%R by (apply IH; intros; apply H; lia). lra.
Qed.

Lemma wsum_const : forall c n, 0 <= n -> wsum (fun _ => c) n = (IZR n * c)%R.
Proof.
  intros c n Hn. pattern n. apply natlike_ind; [rewrite wsum_0; lra| |exact Hn].
  intros x Hx IH. unfold Z.succ. rewrite wsum_S, IH, plus_IZR by lia. lra.
Qed.

(** if the sum reaches n times the upper bound then all terms equal the bound *)
Lemma wsum_extreme : forall f c n, 0 <= n -> (forall j, 0 <= j < n -> (f j <= c)%R) ->
  (IZR n * c <= wsum f n)%R -> forall j, 0 <= j < n -> f j = c.
Proof.
  intros f c n Hn. pattern n. apply natlike_ind; [intros; lia| |exact Hn].
  intros x Hx IH H Hs j Hj. unfold Z.succ in *. rewrite wsum_S, plus_IZR in Hs by lia.
  assert (f x <= c)%R by (apply H; lia).
  assert (wsum f x <= IZR x * c)%R.
  { rewrite <- wsum_const by lia. apply wsum_le; auto. intros; apply H; lia. }
  destruct (Z.eq_dec j x) as [->|]; [lra|]. apply IH; try lia; [intros; apply H; lia|lra].
Qed.

Lemma greville_eq : forall i p U, 1 <= p -> greville i p U = (wsum (fun j => U (i+j+1)%Z) p / IZR p)%R.
Proof. intros. unfold greville. replace (0 <? p) with true by lia. reflexivity. Qed.

Section Knots.
  Variables (p m : Z) (U : Z -> R).
  Hypothesis HV : valid_knots (O:=Rord) p m U.

  Lemma U_mono : forall i j, 0 <= i -> i <= j -> j <= m -> (U i <= U j)%R.
  Proof. intros. destruct HV as (_ & _ & Hnd & _). apply (proj1 (kle_R _ _)). apply Hnd; auto. Qed.

  Lemma p_pos : (0 < IZR p)%R.
  Proof. destruct HV as (Hp & _). apply IZR_lt. lia. Qed.

  Lemma greville_mono : forall i j, 0 <= i -> i <= j -> j + p <= m -> (greville i p U <= greville j p U)%R.
  Proof.
    intros i j Hi Hij Hj. pose proof HV as (Hp & _). pose proof p_pos.
    rewrite !greville_eq by lia. unfold Rdiv. apply Rmult_le_compat_r.
    - left. apply Rinv_0_lt_compat. auto.
    - apply wsum_le; [lia|]. intros k Hk. apply U_mono; lia.
  Qed.

  Lemma greville_bounds : forall i, 0 <= i -> i + p <= m ->
    (U (i+1)%Z <= greville i p U <= U (i+p)%Z)%R.
  Proof.
    intros i Hi Him. pose proof HV as (Hp & _). pose proof p_pos as Hpp.
    rewrite greville_eq by lia.
    assert (A : (IZR p * U (i+1)%Z <= wsum (fun j => U (i+j+1)%Z) p)%R).
    { rewrite <- wsum_const by lia. apply wsum_le; [lia|]. intros k Hk. apply U_mono; lia. }
    assert (B : (wsum (fun j => U (i+j+1)%Z) p <= IZR p * U (i+p)%Z)%R).
    { rewrite <- wsum_const by lia. apply wsum_le; [lia|]. intros k Hk. apply U_mono; lia. }
    split.
    - apply Rmult_le_reg_l with (IZR p); auto. unfold Rdiv. 
      replace (IZR p * (wsum (fun j => U (i+j+1)%Z) p * / IZR p))%R with (wsum (fun j => U (i+j+1)%Z) p) by (field; lra). lra.
    - apply Rmult_le_reg_l with (IZR p); auto. unfold Rdiv.
      replace (IZR p * (wsum (fun j => U (i+j+1)%Z) p * / IZR p))%R with (wsum (fun j => U (i+j+1)%Z) p) by (field; lra). lra.
  Qed.

  (** the point never reaches U[i+p+1] unless p+1 knots coincide *)
  Lemma greville_lt : forall i, 0 <= i -> i + p + 1 <= m - 1 -> (greville i p U < U (i+p+1)%Z)%R.
  Proof.
    intros i Hi Him. pose proof HV as (Hp & Hm & Hnd & Hc). pose proof p_pos as Hpp.
    destruct (greville_bounds i Hi ltac:(lia)) as [_ HB].
    assert (Hle : (U (i+p)%Z <= U (i+p+1)%Z)%R) by (apply U_mono; lia).
    destruct (Rle_lt_dec (U (i+p+1)%Z) (greville i p U)) as [Hge|]; auto. exfalso.
    assert (Hall : forall j, 0 <= j < p -> U (i+j+1)%Z = U (i+p+1)%Z).
    { apply wsum_extreme; [lia| |].
      - intros j Hj. apply U_mono; lia.
      - rewrite greville_eq in Hge by lia.
        apply Rmult_le_compat_l with (r := IZR p) in Hge; [|lra].
        replace (IZR p * (wsum (fun j => U (i+j+1)%Z) p / IZR p))%R with (wsum (fun j => U (i+j+1)%Z) p) in Hge by (field; lra).
        exact Hge. }
    specialize (Hc (U (i+p+1)%Z)).
    assert (HH : Z.of_nat (length (zseq (i+1) (p+1))) <= count_eq (O:=Rord) U 1 (m-1) (U (i+p+1))).
    { unfold count_eq. apply inj_le. apply NoDup_incl_length; [apply NoDup_zseq|].
      intros x Hx. apply in_zseq in Hx. apply filter_In. split; [apply in_zseq; lia|].
      apply keqb_spec, keq_R. destruct (Z.eq_dec x (i+p+1)) as [->|]; auto.
      replace x with (i + (x-i-1) + 1) by lia. apply Hall. lia. }
    rewrite length_zseq in HH. lia.
  Qed.

  Let n := m - p - 1.
  Lemma find_span_low : forall u, (u <= U p)%R -> find_span (O:=Rord) n p u U = Some p.
  Proof.
    intros u Hu. unfold find_span.
    assert (E : kltb (k:=Rord) (U p) u = false) by (apply (proj2 (kle_R u (U p))); exact Hu).
    rewrite E. reflexivity.
  Qed.

  Lemma find_span_cases : forall (u : R) k, find_span (O:=Rord) n p u U = Some k ->
    p <= k <= n /\
    (((u <= U p)%R /\ k = p) \/ ((U p < u)%R /\ (U (n+1)%Z <= u)%R /\ k = n) \/
     ((U p < u)%R /\ (U k <= u)%R /\ (u < U (k+1)%Z)%R)).
  Proof.
    intros u k H. pose proof HV as (Hp & Hm & _).
    destruct (find_span_spec (O:=Rord) n p u U ltac:(unfold n; lia)) as (k1 & E1 & B1 & C1).
    rewrite E1 in H. inversion H; subst k1. split; auto.
    rewrite ?klt_R, ?kle_R in C1.
    destruct (Rle_lt_dec u (U p)) as [Hle|Hlt].
    - left. split; auto. rewrite (find_span_low u Hle) in E1. congruence.
    - right. destruct C1 as [[C1 C1']|[C1|C1]]; [lra|left; auto|right]. destruct C1; auto.
  Qed.

  Lemma find_span_mono : forall u v k k', (u <= v)%R ->
    find_span (O:=Rord) n p u U = Some k -> find_span (O:=Rord) n p v U = Some k' -> k <= k'.
  Proof.
    intros u v k k' Huv H1 H2. pose proof HV as (Hp & Hm & _).
    apply find_span_cases in H1. apply find_span_cases in H2.
    destruct H1 as [B1 C1]. destruct H2 as [B2 C2].
    destruct (Z.leb_spec k k') as [|Hlt]; auto. exfalso.
    destruct C1 as [[C1 C1']|[(C1 & C1' & C1'')|(C1 & C1' & C1'')]]; [lia| |].
    - destruct C2 as [[C2 C2']|[(C2 & C2' & C2'')|(C2 & C2' & C2'')]]; [lra|lia|].
      assert (U (k'+1)%Z <= U (n+1)%Z)%R by (apply U_mono; unfold n in *; lia). lra.
    - destruct C2 as [[C2 C2']|[(C2 & C2' & C2'')|(C2 & C2' & C2'')]]; [lra|lia|].
      assert (U (k'+1)%Z <= U k)%R by (apply U_mono; unfold n in *; lia). lra.
  Qed.

  (** the function collocated at Greville point j is active on the span of that point *)
  Lemma greville_span : forall j k, ends_nonempty (O:=Rord) p m U -> 0 <= j <= n ->
    find_span (O:=Rord) n p (greville j p U) U = Some k -> active p j k.
  Proof.
    intros j k [E1 E2] Hj H. pose proof HV as (Hp & Hm & _).
    apply (proj1 (klt_R _ _)) in E1. apply (proj1 (klt_R _ _)) in E2.
    replace (m-p-1) with n in E2 by reflexivity. replace (m-p) with (n+1) in E2 by (unfold n; lia).
    destruct (greville_bounds j ltac:(lia) ltac:(unfold n in *; lia)) as [G1 G2].
    apply find_span_cases in H. destruct H as [B C]. unfold active. split.
    - (* k <= j + p *)
      destruct (Z.leb_spec (k-p) j) as [|Hlt]; auto. exfalso.
      pose proof (greville_lt j ltac:(lia) ltac:(unfold n in *; lia)) as G3.
      destruct C as [[C1 C1']|[(C1 & C1' & C1'')|(C1 & C1' & C1'')]]; [lia| |].
      + assert (U (j+p+1)%Z <= U n)%R by (apply U_mono; unfold n in *; lia). lra.
      + assert (U (j+p+1)%Z <= U k)%R by (apply U_mono; unfold n in *; lia). lra.
    - destruct (Z.leb_spec j k) as [|Hlt]; auto. exfalso.
      destruct C as [[C1 C1']|[(C1 & C1' & C1'')|(C1 & C1' & C1'')]]; [|lia|].
      + assert (U (p+1)%Z <= U (j+1)%Z)%R by (apply U_mono; unfold n in *; lia). lra.
      + assert (U (k+1)%Z <= U (j+1)%Z)%R by (apply U_mono; unfold n in *; lia). lra.
  Qed.
End Knots.

(** shift is between 0 and (p)/2 and the shifted points are basis functions of the axis *)
Lemma shift_bounds : forall (a : axis Rord) l, wf a l ->
  let n := ax_m a - ax_p a - 1 in let shift := (n + 1 - ax_nnp a) / 2 in
  0 <= shift /\ 2 * shift <= ax_p a /\ ax_nnp a - 1 + shift <= n /\ 1 <= ax_nnp a /\ (ax_periodic a = false -> shift = 0).
Proof.
  intros a l Hwf n shift. destruct (wf_nnp a l Hwf) as (s & Hs & Hnnp).
  pose proof Hwf as (_ & (Hp & Hm & _) & _).
  assert (Hsh : shift = (n + 1 - ax_nnp a)/2) by reflexivity. unfold n in *.
  destruct (ax_periodic a); repeat split; try lia; try discriminate.
Qed.

Definition cn (a : axis Rord) (P r : Z) : option (Z * range) :=
  colloc_node_range a (ax_nnp a) (dist_s P (ax_nnp a) r) (dist_n P (ax_nnp a) r).

Lemma colloc_range_spec : forall (a : axis Rord) l P r, wf a l -> 1 <= P <= ax_nnp a -> 0 <= r < P ->
  let n := ax_m a - ax_p a - 1 in let shift := (n + 1 - ax_nnp a) / 2 in
  exists rg, cn a P r = Some (shift, rg) /\
    r_size rg = ax_nnp a /\ r_lstart rg = dist_s P (ax_nnp a) r /\ r_lwidth rg = dist_n P (ax_nnp a) r /\
    1 <= r_lwidth rg /\
    (forall x k, r_lstart rg <= x < r_lstart rg + r_lwidth rg ->
       find_span (O:=Rord) n (ax_p a) (greville (x + shift) (ax_p a) (ax_U a)) (ax_U a) = Some k ->
       forall A, active (ax_p a) A k -> r_gstart rg <= A - shift < r_gstart rg + r_gwidth rg) /\
    (ends_nonempty (O:=Rord) (ax_p a) (ax_m a) (ax_U a) ->
       r_gstart rg <= r_lstart rg /\ r_lstart rg + r_lwidth rg <= r_gstart rg + r_gwidth rg).
Proof.
  intros a l P r Hwf HP Hr n shift.
  destruct (shift_bounds a l Hwf) as (S1 & S2 & S3 & S4 & S5). fold n in S1, S2, S3, S5. fold shift in S1, S2, S3, S5.
  pose proof Hwf as (_ & HV & _). pose proof HV as (Hp & Hm & _).
  pose proof (dist_tiles P (ax_nnp a) ltac:(lia) ltac:(lia)) as HT.
  pose proof (tiles_bounds _ _ _ _ HT r Hr) as HB.
  pose proof (dist_pos P (ax_nnp a) r ltac:(lia) ltac:(lia)) as HW.
  unfold cn, colloc_node_range. fold n. fold shift.
  set (s := dist_s P (ax_nnp a) r) in *. set (w := dist_n P (ax_nnp a) r) in *.
  destruct (find_span_spec (O:=Rord) n (ax_p a) (greville (s + shift) (ax_p a) (ax_U a)) (ax_U a) ltac:(unfold n; lia))
    as (k1 & E1 & B1 & _).
  destruct (find_span_spec (O:=Rord) n (ax_p a) (greville (s + w - 1 + shift) (ax_p a) (ax_U a)) (ax_U a) ltac:(unfold n; lia))
    as (k2 & E2 & B2 & _).
  rewrite E1, E2. eexists. split; [reflexivity|]. cbn [r_size r_lstart r_lwidth r_gstart r_gwidth].
  repeat (split; [solve [auto]|]).
  assert (Hcl : forall x k, s <= x < s + w ->
       find_span (O:=Rord) n (ax_p a) (greville (x + shift) (ax_p a) (ax_U a)) (ax_U a) = Some k -> k1 <= k <= k2).
  { intros x k Hx Hk. split.
    - eapply (find_span_mono _ _ _ HV); [|exact E1|exact Hk]. apply (greville_mono _ _ _ HV); unfold n in *; lia.
    - eapply (find_span_mono _ _ _ HV); [|exact Hk|exact E2]. apply (greville_mono _ _ _ HV); unfold n in *; lia. }
  split.
  - intros x k Hx Hk A HA. unfold active in HA. specialize (Hcl x k Hx Hk). lia.
  - intros Hends.
    pose proof (greville_span _ _ _ HV (s+shift) k1 Hends ltac:(fold n; lia) E1) as A1.
    pose proof (greville_span _ _ _ HV (s+w-1+shift) k2 Hends ltac:(fold n; lia) E2) as A2.
    unfold active in *. lia.
Qed.
