(** Integrals of B-splines: the integral over the domain of function c of degree p is
    (U[c+p+1] - U[c]) / (p+1) when the knot vector is clamped; sums of element lengths. *)
From Coq Require Import ZArith List Bool Lia Reals Lra.
From Coq Require Import ZifyBool ZifyNat.
From Coquelicot Require Import Coquelicot.
From Verif Require Import Prelude RealOrd GridSpec GridProofs BasSpec BasProofs BasProofs2.
Import ListNotations.
Open Scope R_scope.

Definition delta (a b : Z) : R := if Z.eq_dec a b then 1 else 0.
Lemma delta_same a : delta a a = 1.
Proof. unfold delta. destruct (Z.eq_dec a a); congruence. Qed.
Lemma delta_other a b : a <> b -> delta a b = 0.
Proof. intros H. unfold delta. destruct (Z.eq_dec a b); congruence. Qed.

Lemma rsum_telescope (f : Z -> R) c n : (0 <= n)%Z -> rsum (fun j => f j - f (j+1)%Z) (zseq c n) = f c - f (c + n)%Z.
Proof.
  intros Hn. replace n with (Z.of_nat (Z.to_nat n)) by lia. induction (Z.to_nat n) as [|k IH].
  - rewrite Z.add_0_r. unfold rsum. simpl. ring.
  - replace (Z.of_nat (S k)) with (Z.of_nat k + 1)%Z by lia. rewrite zseq_snoc by lia. rewrite rsum_app, IH, rsum_cons.
    replace (c + (Z.of_nat k + 1))%Z with (c + Z.of_nat k + 1)%Z by lia. unfold rsum. simpl. ring.
Qed.

(** A piece of degree q of function c reads the knots c .. c+q+1 only. *)
Lemma bsp_ext ind U V q : forall c u, (forall j, (c <= j <= c + Z.of_nat q + 1)%Z -> U j = V j) -> bsp ind U q c u = bsp ind V q c u.
Proof.
  induction q as [|q IH]; intros c u H; [reflexivity|].
  cbn [bsp]. rewrite (IH c u), (IH (c+1)%Z u) by (intros; apply H; lia).
  rewrite !H by lia. reflexivity.
Qed.
Lemma bsp_ind_ext ind ind' U q : forall c u, (forall j, (c <= j <= c + Z.of_nat q)%Z -> ind j = ind' j) -> bsp ind U q c u = bsp ind' U q c u.
Proof.
  induction q as [|q IH]; intros c u H; [apply H; lia|].
  cbn [bsp]. rewrite (IH c u), (IH (c+1)%Z u) by (intros; apply H; lia). reflexivity.
Qed.

Section Ends.
  Variable E : Z -> R.
  Hypothesis HE : forall i j, (i <= j)%Z -> E i <= E j.
  Notation N k := (bspline_piece E k).

  Lemma at_left q : forall k c, E k < E (k+1)%Z -> E (k - Z.of_nat q + 1)%Z = E k \/ q = 0%nat -> N k q c (E k) = delta c (k - Z.of_nat q).
  Proof.
    induction q as [|q IH]; intros k c Hk Hq.
    - replace (k - Z.of_nat 0)%Z with k by lia. reflexivity.
    - destruct Hq as [Hq|Hq]; [|discriminate]. replace (k - Z.of_nat (S q) + 1)%Z with (k - Z.of_nat q)%Z in Hq by lia.
      assert (Hq' : E (k - Z.of_nat q + 1)%Z = E k \/ q = 0%nat).
      { destruct q; [right; reflexivity|left]. pose proof (HE (k - Z.of_nat (S q)) (k - Z.of_nat (S q) + 1) ltac:(lia)). pose proof (HE (k - Z.of_nat (S q) + 1) k ltac:(lia)). lra. }
      rewrite piece_S, !IH by auto.
      destruct (Z.eq_dec c (k - Z.of_nat q)) as [->|C1].
      { rewrite delta_same, Hq. rewrite (delta_other (k - Z.of_nat q + 1)), (delta_other _ (k - Z.of_nat (S q))) by lia.
        replace ((E k - E k) * 1) with 0 by ring. rewrite Rmult_0_r, !frac_0. ring. }
      rewrite (delta_other c (k - Z.of_nat q)) by auto. rewrite Rmult_0_r, frac_0, Rplus_0_l.
      destruct (Z.eq_dec c (k - Z.of_nat (S q))) as [->|C2].
      + replace (k - Z.of_nat (S q) + 1)%Z with (k - Z.of_nat q)%Z by lia. rewrite !delta_same.
        replace (k - Z.of_nat (S q) + Z.of_nat (S q) + 1)%Z with (k+1)%Z by lia. rewrite Hq, frac_nz by lra. field. lra.
      + rewrite (delta_other c) by auto. rewrite delta_other by lia. rewrite Rmult_0_r, frac_0. reflexivity.
  Qed.
  Lemma at_right q : forall k c, E k < E (k+1)%Z -> E (k + Z.of_nat q)%Z = E (k+1)%Z \/ q = 0%nat -> N k q c (E (k+1)%Z) = delta c k.
  Proof.
    induction q as [|q IH]; intros k c Hk Hq; [reflexivity|].
    destruct Hq as [Hq|Hq]; [|discriminate].
    assert (Hq' : E (k + Z.of_nat q)%Z = E (k+1)%Z \/ q = 0%nat).
    { destruct q; [right; reflexivity|left]. pose proof (HE (k + Z.of_nat (S q)) (k + Z.of_nat (S (S q))) ltac:(lia)). pose proof (HE (k+1) (k + Z.of_nat (S q)) ltac:(lia)). lra. }
    rewrite piece_S, !IH by auto.
    destruct (Z.eq_dec c k) as [->|C1].
    { rewrite delta_same, Hq, (delta_other (k+1)) by lia. rewrite Rmult_0_r, frac_0. rewrite frac_nz by lra. field. lra. }
    rewrite (delta_other c k) by auto. rewrite Rmult_0_r, frac_0, Rplus_0_l.
    destruct (Z.eq_dec (c+1) k) as [C2|C2].
    - subst k. replace (c + Z.of_nat (S q) + 1)%Z with (c + 1 + Z.of_nat (S q))%Z by lia. rewrite Hq.
      replace ((E (c+1+1)%Z - E (c+1+1)%Z) * delta (c+1) (c+1)) with 0 by ring. apply frac_0.
    - rewrite (delta_other (c+1)) by auto. rewrite Rmult_0_r. apply frac_0.
  Qed.

  (** Pieces over consecutive nonempty spans meet when the degree is at least the multiplicity. *)
  Lemma pieces_meet k k' q : (k < k')%Z -> E k < E (k+1)%Z -> E (k+1)%Z = E k' -> E k' < E (k'+1)%Z -> (k' - k <= Z.of_nat q)%Z ->
    forall c, N k q c (E k') = N k' q c (E k').
  Proof.
    intros Hlt H1 H2 H3. induction q as [|q IH]; intros Hq c; [lia|].
    destruct (Z.eq_dec (k' - k) (Z.of_nat (S q))) as [e|e].
    - rewrite (at_left (S q) k'); [|auto|left; replace (k' - Z.of_nat (S q) + 1)%Z with (k+1)%Z by lia; auto].
      rewrite <- H2. rewrite at_right; [f_equal; lia|auto|left]. replace (k + Z.of_nat (S q))%Z with k' by lia. auto.
    - rewrite !piece_S. rewrite !IH by lia. reflexivity.
  Qed.
End Ends.

Section Clamped.
  Variables (p m : Z) (U : Z -> R).
  Hypothesis Hp : (1 <= p)%Z.
  Hypothesis Hm : (2*p+1 <= m)%Z.
  Hypothesis Hnd : forall i j, (0 <= i)%Z -> (i <= j)%Z -> (j <= m)%Z -> U i <= U j.
  Hypothesis H0 : U 0%Z = U p.
  Hypothesis H1 : U (m-p)%Z = U m.
  Hypothesis Hsup : forall c, (0 <= c <= m-p-1)%Z -> U c < U (c+p+1)%Z.
  Variables (nel : Z) (s : Z -> Z).
  Hypothesis Hnel : (1 <= nel)%Z.
  Hypothesis Hs : forall e, (0 <= e < nel)%Z -> (p <= s e <= m-p-1)%Z /\ U (s e) < U (s e + 1)%Z.
  Hypothesis Hstep : forall e, (0 <= e)%Z -> (e + 1 < nel)%Z -> (s e < s (e+1) <= s e + p)%Z /\ U (s e + 1)%Z = U (s (e+1)%Z).
  Hypothesis Hfirst : s 0%Z = p.
  Hypothesis Hlast : s (nel-1)%Z = (m-p-1)%Z.

  Definition ext (j : Z) : R := U (Z.max 0 (Z.min j m)).
  Lemma ext_in j : (0 <= j <= m)%Z -> ext j = U j.
  Proof. intros. unfold ext. f_equal. lia. Qed.
  Lemma ext_mono : forall i j, (i <= j)%Z -> ext i <= ext j.
  Proof using All. intros. apply Hnd; lia. Qed.
  Let P := Z.to_nat p.
  Lemma HPp : Z.of_nat P = p.
  Proof using All. unfold P. lia. Qed.
  Notation N k := (bspline_piece ext k).
  Let d (c : Z) := U (c+p+1)%Z - U c.
  Let T (k c : Z) (u : R) := rsum (fun j => N k (S P) j u) (zseq c (m - c)).

  Lemma T_derive k c u : (p <= k <= m-p-1)%Z -> U k < U (k+1)%Z -> (0 <= c <= m-p-1)%Z ->
    is_derive (fun v => d c / (IZR p + 1) * T k c v) u (N k P c u).
  Proof using All.
    intros Hk Hlt Hc.
    assert (A : is_derive (T k c) u (rsum (fun j => dpiece ext k P j u) (zseq c (m - c)))).
    { unfold T. apply (is_derive_rsum (fun j => N k (S P) j) (fun j v => dpiece ext k P j v)). intros j _.
      apply (derive_piece ext k (p+1)); rewrite ?HPp; try lia.
      - intros a b _ Hab _. apply ext_mono; auto.
      - rewrite !ext_in by lia. exact Hlt. }
    replace (N k P c u) with (d c / (IZR p + 1) * rsum (fun j => dpiece ext k P j u) (zseq c (m - c))).
    - apply (is_derive_scal (T k c) u (d c / (IZR p + 1)) _ A).
    - set (f := fun j => INR (S P) * frac (N k P j u) (ext (j + Z.of_nat (S P))%Z - ext j)).
      rewrite (rsum_ext _ _ (fun j => f j - f (j+1)%Z)).
      2:{ intros j _. unfold dpiece, f. replace (j + Z.of_nat (S P) + 1)%Z with (j + 1 + Z.of_nat (S P))%Z by lia. ring. }
      rewrite rsum_telescope by lia. replace (c + (m - c))%Z with m by lia. unfold f.
      rewrite (piece_zero ext k P m) by (rewrite ?HPp; lia). rewrite frac_0.
      assert (D : 0 < d c) by (pose proof (Hsup c Hc); unfold d; lra).
      replace (c + Z.of_nat (S P))%Z with (c+p+1)%Z by (rewrite <- HPp; lia). rewrite !ext_in by lia. fold (d c). rewrite frac_nz by lra.
      rewrite S_INR, INR_IZR_INZ, HPp. field. split; [lra|]. apply IZR_le in Hp. lra.
  Qed.

  Lemma span_integral k c : (p <= k <= m-p-1)%Z -> U k < U (k+1)%Z -> (0 <= c <= m-p-1)%Z ->
    is_RInt (N k P c) (U k) (U (k+1)%Z) (d c / (IZR p + 1) * T k c (U (k+1)%Z) - d c / (IZR p + 1) * T k c (U k)).
  Proof using All.
    intros Hk Hlt Hc. apply (is_RInt_derive (fun v => d c / (IZR p + 1) * T k c v)).
    - intros u _. apply T_derive; auto.
    - intros u _. apply (@ex_derive_continuous R_AbsRing R_NormedModule). eexists.
      replace P with (S (Z.to_nat (p-1))) by (unfold P; lia).
      apply (derive_piece ext k (p+1)); try lia.
      + intros a b _ Hab _. apply ext_mono; auto.
      + rewrite !ext_in by lia. exact Hlt.
  Qed.

  Lemma T_first c : (0 <= c <= m-p-1)%Z -> T p c (U p) = 0.
  Proof using All.
    intros Hc. unfold T. apply rsum_zero. intros j Hj. apply in_zseq in Hj.
    assert (Hlt : U p < U (p+1)%Z) by (pose proof (Hs 0%Z ltac:(lia)) as [_ X]; rewrite Hfirst in X; exact X).
    rewrite <- (ext_in p) by lia. rewrite piece_S.
    assert (E1 : ext (p - Z.of_nat P + 1)%Z = ext p \/ P = 0%nat).
    { left. rewrite HPp, !ext_in by lia. pose proof (Hnd 0 (p - p + 1) ltac:(lia) ltac:(lia) ltac:(lia)). pose proof (Hnd (p - p + 1) p ltac:(lia) ltac:(lia) ltac:(lia)). lra. }
    assert (E2 : ext p < ext (p+1)%Z) by (rewrite !ext_in by lia; exact Hlt).
    rewrite !(at_left ext ext_mono P p) by auto. rewrite HPp.
    rewrite (delta_other (j+1)) by lia. rewrite Rmult_0_r, frac_0, Rplus_0_r.
    destruct (Z.eq_dec j (p - p)) as [->|e].
    - replace (p - p)%Z with 0%Z by lia. rewrite !ext_in by lia. rewrite H0. replace ((U p - U p) * delta 0 0) with 0 by ring. apply frac_0.
    - rewrite delta_other by auto. rewrite Rmult_0_r. apply frac_0.
  Qed.
  Lemma T_last c : (0 <= c <= m-p-1)%Z -> T (m-p-1) c (U (m-p)%Z) = 1.
  Proof using All.
    intros Hc. unfold T. set (k := (m-p-1)%Z).
    assert (Hlt : U k < U (k+1)%Z) by (pose proof (Hs (nel-1)%Z ltac:(lia)) as [_ X]; rewrite Hlast in X; exact X).
    assert (E2 : ext k < ext (k+1)%Z) by (rewrite !ext_in by (unfold k; lia); exact Hlt).
    assert (Ek : forall q, (1 <= q <= p+1)%Z -> ext (k + q)%Z = ext (k+1)%Z).
    { intros q Hq. unfold k. rewrite !ext_in by lia. replace (m - p - 1 + 1)%Z with (m-p)%Z by lia.
      pose proof (Hnd (m-p) (m-p-1+q) ltac:(lia) ltac:(lia) ltac:(lia)). pose proof (Hnd (m-p-1+q) m ltac:(lia) ltac:(lia) ltac:(lia)). lra. }
    rewrite (rsum_ext _ _ (fun j => delta j k)).
    - rewrite (rsum_single _ _ _ k); [apply delta_same|apply NoDup_zseq|apply in_zseq; unfold k; lia|]. intros j _ Hj. apply delta_other; auto.
    - intros j Hj. replace (U (m-p)%Z) with (ext (k+1)%Z) by (rewrite ext_in by (unfold k; lia); f_equal; unfold k; lia).
      apply (at_right ext ext_mono); auto. left. apply Ek. pose proof HPp; lia.
  Qed.
  Lemma T_meet c e : (0 <= e)%Z -> (e + 1 < nel)%Z -> (0 <= c <= m-p-1)%Z ->
    T (s e) c (U (s e + 1)%Z) = T (s (e+1)%Z) c (U (s (e+1)%Z)).
  Proof using All.
    intros He1 He2 Hc. destruct (Hstep e He1 He2) as [B1 B2]. destruct (Hs e ltac:(lia)) as [C1 C2]. destruct (Hs (e+1)%Z ltac:(lia)) as [D1 D2].
    unfold T. rewrite B2. apply rsum_ext. intros j _. rewrite <- (ext_in (s (e+1)%Z)) by lia.
    apply (pieces_meet ext ext_mono); rewrite ?ext_in by lia; auto; pose proof HPp; lia.
  Qed.

  (** Over a knot span the B-spline function is its piece. *)
  Lemma bspline_is_piece k c u : (p <= k <= m-p-1)%Z -> U k <= u < U (k+1)%Z -> (0 <= c <= m-p-1)%Z -> bspline U P c u = N k P c u.
  Proof using All.
    intros Hk Hu Hc. unfold bspline, bspline_piece.
    rewrite (bsp_ext _ U ext P c u) by (intros j Hj; rewrite ext_in; auto; pose proof HPp; lia).
    apply bsp_ind_ext. intros j Hj. rewrite HPp in Hj. unfold span_ind, piece.
    destruct (Z.eq_dec j k) as [->|e].
    - destruct (Rle_dec (U k) u); [|lra]. destruct (Rlt_dec u (U (k+1)%Z)); [reflexivity|lra].
    - destruct (Rle_dec (U j) u) as [L|L]; [|reflexivity]. destruct (Rlt_dec u (U (j+1)%Z)) as [L'|L']; [exfalso|reflexivity].
      destruct (Z_lt_dec j k).
      + pose proof (Hnd (j+1) k ltac:(lia) ltac:(lia) ltac:(lia)). lra.
      + pose proof (Hnd (k+1) j ltac:(lia) ltac:(lia) ltac:(lia)). lra.
  Qed.

  Lemma prefix_integral c : (0 <= c <= m-p-1)%Z -> forall e, (e < Z.to_nat nel)%nat ->
    is_RInt (bspline U P c) (U p) (U (s (Z.of_nat e) + 1)%Z) (d c / (IZR p + 1) * T (s (Z.of_nat e)) c (U (s (Z.of_nat e) + 1)%Z)).
  Proof using All.
    intros Hc. assert (One : forall e, (0 <= e < nel)%Z -> is_RInt (bspline U P c) (U (s e)) (U (s e + 1)%Z)
      (d c / (IZR p + 1) * T (s e) c (U (s e + 1)%Z) - d c / (IZR p + 1) * T (s e) c (U (s e)))).
    { intros e He. destruct (Hs e He) as [A B]. apply (is_RInt_ext (N (s e) P c)); [|apply span_integral; auto].
      intros u Hu. rewrite Rmin_left, Rmax_right in Hu by lra. symmetry. apply bspline_is_piece; auto; lra. }
    induction e as [|e IH]; intros He.
    - pose proof (One 0%Z ltac:(lia)) as X. rewrite Hfirst in *. rewrite T_first, Rmult_0_r, Rminus_0_r in X by auto.
      change (Z.of_nat 0) with 0%Z. rewrite Hfirst. exact X.
    - pose proof (IH ltac:(lia)) as A. pose proof (One (Z.of_nat (S e)) ltac:(lia)) as B.
      pose proof (Hstep (Z.of_nat e) ltac:(lia) ltac:(lia)) as [_ St]. pose proof (T_meet c (Z.of_nat e) ltac:(lia) ltac:(lia) Hc) as Me.
      replace (Z.of_nat e + 1)%Z with (Z.of_nat (S e)) in St, Me by lia. rewrite St in A. rewrite St in Me. rewrite Me in A.
      pose proof (is_RInt_Chasles _ _ _ _ _ _ A B) as X.
      match type of X with is_RInt _ _ _ ?v => replace v with (d c / (IZR p + 1) * T (s (Z.of_nat (S e))) c (U (s (Z.of_nat (S e)) + 1)%Z)) in X; [exact X|] end.
      unfold plus; simpl. ring.
  Qed.

  Theorem bspline_integral c : (0 <= c <= m-p-1)%Z -> RInt (bspline U P c) (U p) (U (m-p)%Z) = (U (c+p+1)%Z - U c) / (IZR p + 1).
  Proof using All.
    intros Hc. apply is_RInt_unique. pose proof (prefix_integral c Hc (Z.to_nat (nel-1)) ltac:(lia)) as X.
    replace (Z.of_nat (Z.to_nat (nel-1))) with (nel-1)%Z in X by lia. rewrite Hlast in X. replace (m-p-1+1)%Z with (m-p)%Z in X by lia.
    rewrite T_last in X by auto. rewrite Rmult_1_r in X. exact X.
  Qed.

  (** The lengths of the elements in the support of function c make up the support. *)
  Theorem support_lengths c : (0 <= c <= m-p-1)%Z ->
    rsum (fun e => if (s e - p <=? c)%Z && (c <=? s e)%Z then U (s e + 1)%Z - U (s e) else 0) (zseq 0 nel) = U (c+p+1)%Z - U c.
  Proof using All.
    intros Hc. set (phi := fun u => Rmax (U c) (Rmin u (U (c+p+1)%Z))).
    assert (Pm : forall e, (e < Z.to_nat nel)%nat ->
      rsum (fun e => if (s e - p <=? c)%Z && (c <=? s e)%Z then U (s e + 1)%Z - U (s e) else 0) (zseq 0 (Z.of_nat e + 1)) = phi (U (s (Z.of_nat e) + 1)%Z) - U c).
    { assert (One : forall e, (0 <= e < nel)%Z -> (if (s e - p <=? c)%Z && (c <=? s e)%Z then U (s e + 1)%Z - U (s e) else 0) = phi (U (s e + 1)%Z) - phi (U (s e))).
      { intros e He. destruct (Hs e He) as [A B]. pose proof (Hsup c Hc). unfold phi.
        destruct (Z_lt_dec (s e) c) as [L|L].
        { replace (c <=? s e)%Z with false by lia. rewrite andb_false_r. pose proof (Hnd (s e + 1) c ltac:(lia) ltac:(lia) ltac:(lia)).
          rewrite !Rmin_left, !Rmax_left by lra. ring. }
        destruct (Z_lt_dec (c + p) (s e)) as [L'|L'].
        { replace (s e - p <=? c)%Z with false by lia. pose proof (Hnd (c+p+1) (s e) ltac:(lia) ltac:(lia) ltac:(lia)).
          cbn [andb]. rewrite !Rmin_right by lra. ring. }
        replace (s e - p <=? c)%Z with true by lia. replace (c <=? s e)%Z with true by lia. cbn [andb].
        pose proof (Hnd c (s e) ltac:(lia) ltac:(lia) ltac:(lia)). pose proof (Hnd (s e + 1) (c+p+1) ltac:(lia) ltac:(lia) ltac:(lia)).
        rewrite !Rmin_left, !Rmax_right by lra. reflexivity. }
      induction e as [|e IH]; intros He.
      - change (Z.of_nat 0) with 0%Z. rewrite Z.add_0_l, zseq_cons, zseq_nil by lia. rewrite rsum_cons, One by lia. unfold rsum. simpl fold_right.
        replace (phi (U (s 0%Z))) with (U c); [ring|]. unfold phi. rewrite Hfirst, <- H0. pose proof (Hnd 0 c ltac:(lia) ltac:(lia) ltac:(lia)). pose proof (Hsup c Hc).
        rewrite Rmin_left, Rmax_left by lra. reflexivity.
      - replace (Z.of_nat (S e) + 1)%Z with (Z.of_nat e + 1 + 1)%Z by lia. rewrite zseq_snoc by lia. rewrite rsum_app, IH by lia. rewrite rsum_cons, One by lia.
        pose proof (Hstep (Z.of_nat e) ltac:(lia) ltac:(lia)) as [_ St]. replace (0 + (Z.of_nat e + 1))%Z with (Z.of_nat e + 1)%Z by lia. rewrite St.
        replace (Z.of_nat (S e)) with (Z.of_nat e + 1)%Z by lia. unfold rsum. simpl fold_right. ring. }
    pose proof (Pm (Z.to_nat (nel-1)) ltac:(lia)) as X. replace (Z.of_nat (Z.to_nat (nel-1))) with (nel-1)%Z in X by lia. replace (nel-1+1)%Z with nel in X by lia.
    rewrite X, Hlast. replace (m-p-1+1)%Z with (m-p)%Z by lia. unfold phi. pose proof (Hnd (c+p+1) m ltac:(lia) ltac:(lia) ltac:(lia)). pose proof (Hsup c Hc).
    rewrite Rmin_right, Rmax_right by lra. reflexivity.
  Qed.

  (** Traces at the ends of the domain. *)
  Theorem trace_left c : (0 <= c <= m-p-1)%Z -> bspline U P c (U p) = delta c 0.
  Proof using All.
    intros Hc. destruct (Hs 0%Z ltac:(lia)) as [_ B]. rewrite Hfirst in B.
    rewrite (bspline_is_piece p c (U p)) by (auto; try lia; lra). rewrite <- (ext_in p) by lia.
    rewrite (at_left ext ext_mono P p); [f_equal; rewrite HPp; lia|rewrite !ext_in by lia; exact B|].
    left. rewrite HPp, !ext_in by lia. pose proof (Hnd 0 (p - p + 1) ltac:(lia) ltac:(lia) ltac:(lia)). pose proof (Hnd (p - p + 1) p ltac:(lia) ltac:(lia) ltac:(lia)). lra.
  Qed.
  Theorem trace_right c : (0 <= c <= m-p-1)%Z -> bspline_piece U (m-p-1) P c (U (m-p)%Z) = delta c (m-p-1).
  Proof using All.
    intros Hc. destruct (Hs (nel-1)%Z ltac:(lia)) as [_ B]. rewrite Hlast in B.
    unfold bspline_piece. rewrite (bsp_ext _ U ext P c) by (intros j Hj; rewrite ext_in; auto; pose proof HPp; lia).
    replace (U (m-p)%Z) with (ext (m-p-1+1)%Z) by (rewrite ext_in by lia; f_equal; lia).
    apply (at_right ext ext_mono P (m-p-1)); [rewrite !ext_in by lia; exact B|].
    left. rewrite HPp, !ext_in by lia. replace (m-p-1+1)%Z with (m-p)%Z by lia.
    pose proof (Hnd (m-p) (m-p-1+p) ltac:(lia) ltac:(lia) ltac:(lia)). pose proof (Hnd (m-p-1+p) m ltac:(lia) ltac:(lia) ltac:(lia)). lra.
  Qed.
End Clamped.
