(** The tables computed by BSplineBasisFunsDers. *)
From Coq Require Import ZArith List Bool Lia Reals Lra Psatz Factorial.
From Coq Require Import ZifyBool ZifyNat.
From Coquelicot Require Import Coquelicot.
From Verif Require Import Prelude RealOrd AxisInitModel AxisInitProofs ElemModel Box GridSpec GridProofs BasModel BasSpec BasProofs.
Import ListNotations.
Open Scope R_scope.

Lemma upd2_same M a b v : upd2 M a b v a b = v.
Proof. unfold upd2. rewrite !Z.eqb_refl. reflexivity. Qed.
Lemma upd2_other M a b v x y : (x <> a \/ y <> b) -> upd2 M a b v x y = M x y.
Proof. intros H. unfold upd2. destruct ((x =? a)%Z && (y =? b)%Z) eqn:E; auto. lia. Qed.

Lemma fold_zseq_ind (S : Type) (f : S -> Z -> S) (Inv : Z -> S -> Prop) s n x0 : (0 <= n)%Z ->
  Inv s x0 -> (forall k x, (s <= k < s + n)%Z -> Inv k x -> Inv (k+1)%Z (f x k)) -> Inv (s + n)%Z (fold_left f (zseq s n) x0).
Proof.
  intros Hn H0 H. pose proof (fold_zseq_inv S f Inv s n x0 H0 H) as K. replace (Z.max 0 n) with n in K by lia. exact K.
Qed.

Lemma is_derive_rsum {A} (f g : A -> R -> R) l u : (forall x, In x l -> is_derive (f x) u (g x u)) ->
  is_derive (fun v => rsum (fun x => f x v) l) u (rsum (fun x => g x u) l).
Proof.
  induction l as [|a l IH]; intros H.
  - exact (is_derive_const 0 u).
  - rewrite rsum_cons. apply (is_derive_plus (f a) (fun v => rsum (fun x => f x v) l)).
    + apply H. left; auto.
    + apply IH. intros; apply H. right; auto.
Qed.

Section Table.
  Variables (U : Z -> R) (i p : Z).
  Hypothesis Hs : forall a b, (i - p + 1 <= a)%Z -> (a <= b)%Z -> (b <= i + p)%Z -> U a <= U b.
  Hypothesis Hi : U i < U (i+1)%Z.
  Hypothesis Hp : (0 <= p)%Z.
  Variable uu : R.

  Definition NN (k c : Z) : R := bspline_piece U i (Z.to_nat k) c uu.

  Lemma NN_zero k c : (0 <= k)%Z -> (c < i - k \/ i < c)%Z -> NN k c = 0.
  Proof. intros Hk H. unfold NN. apply piece_zero. lia. Qed.

  (** the recursion, without the conventional quotient *)
  Lemma NN_S k c : (0 <= k < p)%Z -> (i - (k+1) <= c <= i)%Z -> NN (k+1) c =
    (if (c =? i - (k+1))%Z then 0 else (uu - U c) * (NN k c / (U (c+k+1)%Z - U c)))
    + (if (c =? i)%Z then 0 else (U (c+k+2)%Z - uu) * (NN k (c+1)%Z / (U (c+k+2)%Z - U (c+1)%Z))).
  Proof.
    intros Hk Hc. unfold NN. replace (Z.to_nat (k+1)) with (S (Z.to_nat k)) by lia. rewrite piece_S.
    replace (c + Z.of_nat (S (Z.to_nat k)))%Z with (c+k+1)%Z by lia. replace (c+k+1+1)%Z with (c+k+2)%Z by lia. f_equal.
    - destruct (c =? i - (k+1))%Z eqn:E.
      + rewrite piece_zero, Rmult_0_r, frac_0 by lia. auto.
      + pose proof (knots_lt U i p Hs Hi Hp c (c+k+1)%Z ltac:(lia) ltac:(lia) ltac:(lia) ltac:(lia)). rewrite frac_nz by lra. field. lra.
    - destruct (c =? i)%Z eqn:E.
      + rewrite piece_zero, Rmult_0_r, frac_0 by lia. auto.
      + pose proof (knots_lt U i p Hs Hi Hp (c+1)%Z (c+k+2)%Z ltac:(lia) ltac:(lia) ltac:(lia) ltac:(lia)). rewrite frac_nz by lra. field. lra.
  Qed.

  (** columns 0..J of ndu hold the functions of degree 0..J, rows 1..J the knot differences *)
  Definition filled (J : Z) (ndu : Z -> Z -> R) : Prop :=
    (forall k r, (0 <= r <= k)%Z -> (k <= J)%Z -> ndu r k = NN k (i-k+r)%Z) /\
    (forall k r, (0 <= r < k)%Z -> (k <= J)%Z -> ndu k r = U (i+r+1)%Z - U (i+1-k+r)%Z).

  Definition inner_inv (j : Z) (R0 : Z) (st : (Z -> Z -> R) * R) : Prop :=
    filled (j-1) (fst st) /\
    (forall r, (0 <= r < R0)%Z -> fst st j r = U (i+r+1)%Z - U (i+1-j+r)%Z) /\
    (forall r, (0 <= r < R0)%Z -> fst st r j = NN j (i-j+r)%Z) /\
    snd st = (if (R0 =? 0)%Z then 0 else (uu - U (i-j+R0)%Z) * (NN (j-1) (i-j+R0)%Z / (U (i+R0)%Z - U (i-j+R0)%Z))).

  Lemma inner_ok j lft rgt ndu : (1 <= j <= p)%Z ->
    (forall k, (1 <= k <= j)%Z -> lft k = uu - U (i+1-k)%Z /\ rgt k = U (i+k)%Z - uu) -> filled (j-1) ndu ->
    inner_inv j j (fold_left (ndu_inner lft rgt j) (zseq 0 j) (ndu, 0)).
  Proof.
    intros Hj HLR HF. apply (fold_zseq_ind _ (ndu_inner lft rgt j) (inner_inv j) 0 j); [lia| |].
    - split; [exact HF|]. split; [intros; lia|]. split; [intros; lia|]. reflexivity.
    - intros r [nd sv] Hr ((F1 & F2) & I1 & I2 & I3). cbn [fst snd] in *. unfold ndu_inner.
      destruct (HLR (r+1)%Z ltac:(lia)) as [_ HR]. destruct (HLR (j-r)%Z ltac:(lia)) as [HL _].
      rewrite HR, HL. replace (i + (r+1))%Z with (i+r+1)%Z by lia. replace (i + 1 - (j - r))%Z with (i+1-j+r)%Z by lia.
      set (den := U (i+r+1)%Z - uu + (uu - U (i+1-j+r)%Z)).
      assert (Eden : den = U (i+r+1)%Z - U (i+1-j+r)%Z) by (unfold den; ring).
      set (nd1 := upd2 nd j r den).
      assert (T : nd1 r (j-1)%Z / nd1 j r = NN (j-1) (i-j+r+1)%Z / (U (i+r+1)%Z - U (i-j+r+1)%Z)).
      { unfold nd1. rewrite upd2_same. rewrite upd2_other by lia. rewrite (F1 (j-1)%Z r) by lia. rewrite Eden.
        replace (i - (j - 1) + r)%Z with (i-j+r+1)%Z by lia. replace (i+1-j+r)%Z with (i-j+r+1)%Z by lia. reflexivity. }
      rewrite T. set (t := NN (j-1) (i-j+r+1)%Z / (U (i+r+1)%Z - U (i-j+r+1)%Z)).
      set (nd2 := upd2 nd1 r j (sv + (U (i+r+1)%Z - uu) * t)).
      split; [split|split; [|split]]; cbn [fst snd].
      + intros k r' Hr' Hk. unfold nd2, nd1. rewrite !upd2_other by lia. apply F1; lia.
      + intros k r' Hr' Hk. unfold nd2, nd1. rewrite !upd2_other by lia. apply F2; lia.
      + intros r' Hr'. unfold nd2. rewrite upd2_other by lia. unfold nd1. destruct (Z.eq_dec r' r) as [->|N].
        * rewrite upd2_same. exact Eden.
        * rewrite upd2_other by lia. apply I1. lia.
      + intros r' Hr'. unfold nd2. destruct (Z.eq_dec r' r) as [->|N].
        * rewrite upd2_same. rewrite I3.
          replace j with (j-1+1)%Z at 5 by lia. rewrite NN_S by lia. unfold t.
          replace (i - j + r =? i - (j - 1 + 1))%Z with (r =? 0)%Z by lia. replace (i - j + r =? i)%Z with false by lia.
          replace (i - j + r + (j - 1) + 1)%Z with (i+r)%Z by lia. replace (i - j + r + (j - 1) + 2)%Z with (i+r+1)%Z by lia.
          reflexivity.
        * rewrite upd2_other by lia. unfold nd1. rewrite upd2_other by lia. apply I2. lia.
      + replace (r + 1 =? 0)%Z with false by lia. replace (i+1-j+r)%Z with (i-j+(r+1))%Z by lia. unfold t.
        replace (i - j + r + 1)%Z with (i - j + (r+1))%Z by lia. replace (i + r + 1)%Z with (i + (r+1))%Z by lia. reflexivity.
  Qed.

  Lemma table_ok ndu0 l0 r0 : filled p (ndu_table i uu p U ndu0 l0 r0).
  Proof.
    unfold ndu_table.
    pose (Inv := fun (j : Z) (st : (Z -> Z -> R) * (Z -> R) * (Z -> R)) =>
      filled (j-1) (fst (fst st)) /\ forall k, (1 <= k < j)%Z -> snd (fst st) k = uu - U (i+1-k)%Z /\ snd st k = U (i+k)%Z - uu).
    assert (K : Inv (1 + p)%Z (fold_left (ndu_outer i uu U) (zseq 1 p) (upd2 ndu0 0 0 1, l0, r0))).
    { apply (fold_zseq_ind _ _ Inv 1 p); [lia| |].
      - split; [split|]; cbn [fst snd].
        + intros k r Hr Hk. assert (k = 0%Z) by lia. assert (r = 0%Z) by lia. subst. rewrite upd2_same.
          unfold NN, bspline_piece. simpl. unfold piece. destruct (Z.eq_dec (i - 0 + 0) i); [auto|lia].
        + intros; lia.
        + intros; lia.
      - intros j [[nd lft] rgt] Hj [HF HLR]. cbn [fst snd] in *. unfold ndu_outer.
        set (lft' := upd lft j (uu - U (i+1-j)%Z)). set (rgt' := upd rgt j (U (i+j)%Z - uu)).
        assert (HLR' : forall k, (1 <= k <= j)%Z -> lft' k = uu - U (i+1-k)%Z /\ rgt' k = U (i+k)%Z - uu).
        { intros k Hk. unfold lft', rgt'. destruct (Z.eq_dec k j) as [->|N]; [rewrite !upd_same; auto|].
          rewrite !upd_other by auto. apply HLR. lia. }
        pose proof (inner_ok j lft' rgt' nd ltac:(lia) HLR' HF) as K.
        destruct (fold_left (ndu_inner lft' rgt' j) (zseq 0 j) (nd, 0)) as [nd' sv]. destruct K as ((F1 & F2) & I1 & I2 & I3).
        cbn [fst snd] in *. split; [split|]; cbn [fst snd].
        + intros k r Hr Hk. destruct (Z.eq_dec k j) as [->|N].
          * destruct (Z.eq_dec r j) as [->|N2].
            -- rewrite upd2_same, I3. replace (j =? 0)%Z with false by lia. replace (i - j + j)%Z with i by lia.
               pose proof (NN_S (j-1) i ltac:(lia) ltac:(lia)) as Q. replace (j - 1 + 1)%Z with j in Q by lia.
               replace (i =? i - j)%Z with false in Q by lia. rewrite Z.eqb_refl, Rplus_0_r in Q.
               replace (i + (j - 1) + 1)%Z with (i + j)%Z in Q by lia. rewrite Q. reflexivity.
            -- rewrite upd2_other by lia. apply I2. lia.
          * rewrite upd2_other by lia. apply F1; lia.
        + intros k r Hr Hk. rewrite upd2_other by lia. destruct (Z.eq_dec k j) as [->|N]; [apply I1; lia|apply F2; lia].
        + intros k Hk. apply HLR'. lia. }
    destruct K as [K _]. replace (1 + p - 1)%Z with p in K by lia. exact K.
  Qed.

  (** * Derivative coefficients *)
  Section Coef.
    Variable c : Z.
    Fixpoint acoef (k : nat) (j : Z) : R :=
      match k with
      | O => if (j =? 0)%Z then 1 else 0
      | S k' => frac (acoef k' j - acoef k' (j-1)%Z) (U (c + p - Z.of_nat k' + j)%Z - U (c + j)%Z)
      end.
    Lemma acoef_out k : forall j, (j < 0 \/ Z.of_nat k < j)%Z -> acoef k j = 0.
    Proof.
      induction k as [|k IH]; intros j Hj; cbn [acoef].
      - replace (j =? 0)%Z with false by lia. auto.
      - rewrite !IH by lia. rewrite Rminus_0_r, frac_0. auto.
    Qed.

    Definition dsum (k : nat) (u : R) : R :=
      rsum (fun j => acoef k j * bspline_piece U i (Z.to_nat p - k) (c+j)%Z u) (zseq 0 (Z.of_nat k + 1)).

    Lemma dsum_derive k u : (k < Z.to_nat p)%nat -> is_derive (dsum k) u (INR (Z.to_nat p - k) * dsum (S k) u).
    Proof.
      intros Hk. set (q := (Z.to_nat p - S k)%nat). assert (Eq : (Z.to_nat p - k)%nat = S q) by (unfold q; lia).
      set (D := fun j => U (c + p - Z.of_nat k + j)%Z - U (c + j)%Z).
      set (T := fun j => frac (bspline_piece U i q (c+j)%Z u) (D j)).
      assert (K : is_derive (dsum k) u (rsum (fun j => acoef k j * dpiece U i q (c+j)%Z u) (zseq 0 (Z.of_nat k + 1)))).
      { unfold dsum. rewrite Eq.
        apply (is_derive_rsum (fun j v => acoef k j * bspline_piece U i (S q) (c+j)%Z v) (fun j v => acoef k j * dpiece U i q (c+j)%Z v)).
        intros j _. apply (is_derive_scal (bspline_piece U i (S q) (c+j)%Z) u (acoef k j)).
        apply (derive_piece U i p Hs Hi Hp). unfold q. lia. }
      match type of K with is_derive _ _ ?l => replace (INR (Z.to_nat p - k) * dsum (S k) u) with l; [exact K|] end.
      rewrite Eq.
      rewrite (rsum_ext _ _ (fun j => INR (S q) * (acoef k j * T j - acoef k j * T (j+1)%Z))).
      2:{ intros j _. unfold dpiece, T, D. replace (c + j + Z.of_nat (S q))%Z with (c + p - Z.of_nat k + j)%Z by (unfold q; lia).
          replace (c + (j + 1))%Z with (c + j + 1)%Z by lia. replace (c + p - Z.of_nat k + (j + 1))%Z with (c + p - Z.of_nat k + j + 1)%Z by lia. ring. }
      rewrite rsum_scal. f_equal. unfold dsum. replace (Z.to_nat p - S k)%nat with q by (unfold q; lia).
      rewrite (rsum_ext _ (fun j => acoef (S k) j * bspline_piece U i q (c + j)%Z u) (fun j => acoef k j * T j + (- (1)) * (acoef k (j-1)%Z * T j))).
      2:{ intros j _. cbn [acoef]. unfold T, D. set (d := U (c + p - Z.of_nat k + j)%Z - U (c + j)%Z).
          unfold frac. destruct (Req_EM_T d 0); [ring|field; auto]. }
      rewrite rsum_plus, rsum_scal.
      replace (Z.of_nat (S k) + 1)%Z with (Z.of_nat k + 1 + 1)%Z by lia.
      rewrite (zseq_snoc 0 (Z.of_nat k + 1)) at 1 by lia. rewrite rsum_app, (rsum_cons _ (fun j => acoef k j * T j)).
      rewrite (acoef_out k (0 + (Z.of_nat k + 1))) by lia.
      rewrite (zseq_cons 0 (Z.of_nat k + 1 + 1)) by lia. rewrite (rsum_cons _ (fun j => acoef k (j-1)%Z * T j)).
      rewrite (acoef_out k (0-1)) by lia.
      replace (zseq (0+1) (Z.of_nat k + 1 + 1 - 1)) with (map (fun j => (j+1)%Z) (zseq 0 (Z.of_nat k + 1))).
      2:{ unfold zseq. rewrite map_map. replace (Z.of_nat k + 1 + 1 - 1)%Z with (Z.of_nat k + 1)%Z by lia. apply map_ext. intros; lia. }
      rewrite rsum_map. rewrite (rsum_ext _ (fun a => acoef k (a + 1 - 1)%Z * T (a+1)%Z) (fun a => acoef k a * T (a+1)%Z)) by (intros j _; do 2 f_equal; lia).
      rewrite (rsum_ext _ _ (fun j => acoef k j * T j + (- (1)) * (acoef k j * T (j+1)%Z))) by (intros; ring).
      rewrite rsum_plus, rsum_scal. change (rsum (fun j => acoef k j * T j) []) with 0. ring.
    Qed.

    Definition fallR (k : nat) : R := fold_right (fun l x => INR (Z.to_nat p - l) * x) 1 (seq 0 k).
    Lemma fallR_S k : fallR (S k) = fallR k * INR (Z.to_nat p - k).
    Proof.
      unfold fallR. rewrite seq_S, fold_right_app. simpl.
      generalize (seq 0 k). intros l. induction l as [|a l IH]; simpl; [ring|]. rewrite IH. ring.
    Qed.
    Lemma dsum_0 u : dsum 0 u = bspline_piece U i (Z.to_nat p) c u.
    Proof.
      unfold dsum. change (Z.of_nat 0 + 1)%Z with 1%Z. rewrite zseq_cons, zseq_nil by lia. rewrite rsum_cons. cbn [acoef].
      change (0 =? 0)%Z with true. cbn iota. rewrite Nat.sub_0_r, Z.add_0_r. change (rsum ?f []) with 0. unfold rsum; simpl. ring.
    Qed.

    Lemma piece_derive_n k u : (k <= Z.to_nat p)%nat -> is_derive_n (bspline_piece U i (Z.to_nat p) c) k u (fallR k * dsum k u).
    Proof.
      revert u. induction k as [|k IH]; intros u Hk.
      - unfold fallR; simpl. rewrite dsum_0. ring.
      - simpl. apply (is_derive_ext (fun v => fallR k * dsum k v)).
        + intros v. symmetry. apply is_derive_n_unique, IH. lia.
        + rewrite fallR_S, Rmult_assoc. apply (is_derive_scal (dsum k) u (fallR k)), dsum_derive. lia.
    Qed.
    Lemma piece_derive_n_zero k u : (Z.to_nat p < k)%nat -> is_derive_n (bspline_piece U i (Z.to_nat p) c) k u 0.
    Proof.
      revert u. induction k as [|k IH]; intros u Hk; [lia|]. simpl.
      destruct (Nat.eq_dec k (Z.to_nat p)) as [->|N].
      - apply (is_derive_ext (fun v => fallR (Z.to_nat p) * dsum (Z.to_nat p) u)).
        + intros v. symmetry. erewrite is_derive_n_unique by (apply piece_derive_n; lia). f_equal. unfold dsum. apply rsum_ext. intros j _.
          f_equal. rewrite Nat.sub_diag. reflexivity.
        + exact (is_derive_const (fallR (Z.to_nat p) * dsum (Z.to_nat p) u) u).
      - apply (is_derive_ext (fun v => 0)).
        + intros v. symmetry. apply is_derive_n_unique, IH. lia.
        + exact (is_derive_const 0 u).
    Qed.
  End Coef.

  (** * The derivative loops *)
  Section Ders.
    Variable ndu : Z -> Z -> R.
    Hypothesis HF : filled p ndu.
    Variable r : Z.
    Hypothesis Hr : (0 <= r <= p)%Z.
    Let c := (i - p + r)%Z.

    Definition valid (k j : Z) : Prop := (0 <= j <= k /\ k - r <= j <= p - r)%Z.
    Definition row_ok (k : Z) (a : Z -> Z -> R) (s : Z) : Prop := forall j, valid k j -> a s j = acoef c (Z.to_nat k) j.
    Definition term (k j : Z) : R := acoef c (Z.to_nat k) j * NN (p-k) (c+j)%Z.

    Lemma ndu_val k j : (0 <= k <= p)%Z -> valid k j -> ndu (r-k+j)%Z (p-k)%Z = NN (p-k) (c+j)%Z.
    Proof. intros Hk [V1 V2]. rewrite (proj1 HF) by lia. f_equal. unfold c. lia. Qed.
    Lemma term_zero k j : (0 <= k <= p)%Z -> (0 <= j <= k)%Z -> ~ valid k j -> term k j = 0.
    Proof. intros Hk Hj V. unfold term. rewrite NN_zero; [ring|lia|]. unfold valid in V. unfold c. lia. Qed.
    Lemma ndu_den k j : (1 <= k <= p)%Z -> valid k j ->
      ndu (p-k+1)%Z (r-k+j)%Z = U (c + p - (k-1) + j)%Z - U (c+j)%Z /\ U (c + p - (k-1) + j)%Z - U (c+j)%Z <> 0.
    Proof.
      intros Hk [V1 V2]. rewrite (proj2 HF) by lia. split; [f_equal; f_equal; unfold c; lia|].
      pose proof (knots_lt U i p Hs Hi Hp (c+j)%Z (c + p - (k-1) + j)%Z ltac:(unfold c; lia) ltac:(unfold c; lia) ltac:(unfold c; lia) ltac:(unfold c; lia)). lra.
    Qed.
    Lemma acoef_step k j : (1 <= k <= p)%Z -> valid k j ->
      acoef c (Z.to_nat k) j = (acoef c (Z.to_nat (k-1)) j - acoef c (Z.to_nat (k-1)) (j-1)%Z) / ndu (p-k+1)%Z (r-k+j)%Z.
    Proof.
      intros Hk V. destruct (ndu_den k j Hk V) as [-> N]. replace (Z.to_nat k) with (S (Z.to_nat (k-1))) by lia. cbn [acoef].
      replace (c + p - Z.of_nat (Z.to_nat (k - 1)) + j)%Z with (c + p - (k-1) + j)%Z by lia. rewrite frac_nz by exact N. reflexivity.
    Qed.

    Lemma rsum_extend f a b : (0 <= a <= b)%Z -> (forall j, (a <= j < b)%Z -> f j = 0) -> rsum f (zseq 0 b) = rsum f (zseq 0 a).
    Proof.
      intros H Z0. replace b with (a + (b - a))%Z by lia. rewrite zseq_app by lia. rewrite rsum_app.
      rewrite (rsum_zero _ f (zseq (0 + a) (b - a))); [ring|]. intros j Hj. apply in_zseq in Hj. apply Z0. lia.
    Qed.

    Lemma der_k_ok k a s1 s2 ders : (1 <= k <= p)%Z -> s1 <> s2 -> row_ok (k-1) a s1 ->
      exists a', der_k p ndu r (a, s1, s2, ders) k = (a', s2, s1, upd2 ders r k (rsum (term k) (zseq 0 (k+1)))) /\ row_ok k a' s2.
    Proof.
      intros Hk Hs12 HR. unfold der_k. set (rk := (r-k)%Z). set (pk := (p-k)%Z).
      set (j1 := if (-1 <? rk)%Z then 1%Z else (-rk)%Z). set (j2 := if (r-1 <=? pk)%Z then (k-1)%Z else (p-r)%Z).
      assert (J : (1 <= j1 /\ j1 - 1 <= j2 <= k - 1)%Z) by (unfold j1, j2, rk, pk; destruct (-1 <? r - k)%Z eqn:E1, (r - 1 <=? p - k)%Z eqn:E2; lia).
      assert (J1 : forall j, (0 < j < j1)%Z -> ~ valid k j) by (unfold j1, rk, valid; intros j; destruct (-1 <? r - k)%Z eqn:E1; lia).
      assert (J2 : forall j, (j2 < j < k)%Z -> ~ valid k j) by (unfold j2, pk, valid; intros j; destruct (r - 1 <=? p - k)%Z eqn:E1; lia).
      assert (J3 : forall j, (j1 <= j <= j2)%Z -> valid k j /\ valid (k-1) j /\ valid (k-1) (j-1)).
      { unfold j1, j2, rk, pk, valid; intros j; destruct (-1 <? r - k)%Z eqn:E1, (r - 1 <=? p - k)%Z eqn:E2; lia. }
      (* first *)
      set (st1 := if (k <=? r)%Z then let a0 := upd2 a s2 0 (a s1 0%Z / ndu (pk+1)%Z rk) in (a0, a0 s2 0%Z * ndu rk pk) else (a, 0)).
      assert (S1 : (forall j, fst st1 s1 j = a s1 j) /\ (valid k 0 -> fst st1 s2 0%Z = acoef c (Z.to_nat k) 0) /\ snd st1 = rsum (term k) (zseq 0 j1)).
      { unfold st1. destruct (k <=? r)%Z eqn:E; cbn [fst snd].
        - assert (V : valid k 0) by (unfold valid; lia). assert (V' : valid (k-1) 0) by (unfold valid; lia).
          assert (Ej : j1 = 1%Z) by (unfold j1, rk; replace (-1 <? r - k)%Z with true by lia; auto). rewrite Ej.
          assert (A0 : a s1 0%Z / ndu (pk+1)%Z rk = acoef c (Z.to_nat k) 0).
          { rewrite (acoef_step k 0) by auto. unfold rk, pk. rewrite Z.add_0_r. rewrite (HR 0%Z V'), (acoef_out c _ (0-1)) by lia.
            rewrite Rminus_0_r. reflexivity. }
          split; [intros j; apply upd2_other; auto|]. rewrite upd2_same. split; [intros _; exact A0|].
          rewrite zseq_cons, zseq_nil by lia. rewrite rsum_cons. change (rsum (term k) []) with 0. rewrite Rplus_0_r, A0.
          unfold term. pose proof (ndu_val k 0 ltac:(lia) V) as Q. rewrite Z.add_0_r in Q. unfold rk, pk. rewrite Q. reflexivity.
        - split; [auto|]. split; [intros V; unfold valid in V; lia|]. symmetry. apply rsum_zero. intros j Hj. apply in_zseq in Hj.
          apply term_zero; [lia|lia|]. unfold valid, j1, rk in *. destruct (-1 <? r - k)%Z eqn:E1; lia. }
      destruct st1 as [a1 d1]. cbn [fst snd] in S1. destruct S1 as (A1 & A2 & A3).
      (* middle *)
      pose (Inv := fun (j : Z) (st : (Z -> Z -> R) * R) =>
        (forall x, fst st s1 x = a s1 x) /\ (forall x, valid k x -> (x < j)%Z -> fst st s2 x = acoef c (Z.to_nat k) x) /\ snd st = rsum (term k) (zseq 0 j)).
      assert (M : Inv (j1 + (j2 - j1 + 1))%Z (fold_left (der_j ndu pk rk s1 s2) (zseq j1 (j2 - j1 + 1)) (a1, d1))).
      { apply (fold_zseq_ind _ _ Inv); [lia| |].
        - split; [exact A1|]. split; [|exact A3]. intros x V Hx. destruct (Z.eq_dec x 0) as [->|N]; [apply A2; auto|].
          exfalso. apply (J1 x); auto. unfold valid in V. lia.
        - intros j [a2 d2] Hj (I1 & I2 & I3). cbn [fst snd] in *. destruct (J3 j ltac:(lia)) as (V0 & V1 & V2).
          unfold der_j. rewrite upd2_same. rewrite !I1, (HR j V1), (HR (j-1)%Z V2).
          assert (E : (acoef c (Z.to_nat (k-1)) j - acoef c (Z.to_nat (k-1)) (j-1)%Z) / ndu (pk+1)%Z (rk+j)%Z = acoef c (Z.to_nat k) j)
            by (rewrite (acoef_step k j) by auto; reflexivity).
          rewrite E. split; [|split]; cbn [fst snd].
          + intros x. rewrite upd2_other by auto. apply I1.
          + intros x V Hx. destruct (Z.eq_dec x j) as [->|N]; [apply upd2_same|]. rewrite upd2_other by auto. apply I2; auto. lia.
          + rewrite I3. rewrite zseq_snoc by lia. rewrite rsum_app, rsum_cons. change (rsum (term k) []) with 0. rewrite Rplus_0_r. f_equal.
            unfold term. rewrite Z.add_0_l. unfold rk, pk. rewrite (ndu_val k j) by (auto; lia). reflexivity. }
      destruct (fold_left (der_j ndu pk rk s1 s2) (zseq j1 (j2 - j1 + 1)) (a1, d1)) as [a2 d2]. destruct M as (M1 & M2 & M3). cbn [fst snd] in *.
      replace (j1 + (j2 - j1 + 1))%Z with (j2 + 1)%Z in * by lia.
      assert (M4 : d2 = rsum (term k) (zseq 0 k)).
      { rewrite M3. symmetry. apply rsum_extend; [lia|]. intros j Hj. apply term_zero; [lia|lia|]. apply J2. lia. }
      (* last *)
      rewrite zseq_snoc by lia. rewrite rsum_app, rsum_cons, <- M4. change (rsum (term k) []) with 0. rewrite Rplus_0_r.
      destruct (r <=? pk)%Z eqn:E.
      - assert (V : valid k k) by (unfold valid, pk in *; lia). assert (V' : valid (k-1) (k-1)) by (unfold valid, pk in *; lia).
        assert (AK : - a2 s1 (k-1)%Z / ndu (pk+1)%Z r = acoef c (Z.to_nat k) k).
        { rewrite (acoef_step k k) by auto. replace (r - k + k)%Z with r by lia. rewrite M1, (HR _ V'), (acoef_out c (Z.to_nat (k-1)) k) by lia.
          rewrite Rminus_0_l. reflexivity. }
        exists (upd2 a2 s2 k (- a2 s1 (k-1)%Z / ndu (pk+1)%Z r)). split.
        + rewrite AK, upd2_same. do 2 f_equal. f_equal. unfold term. rewrite Z.add_0_l. f_equal.
          pose proof (ndu_val k k ltac:(lia) V) as Q. replace (r - k + k)%Z with r in Q by lia. exact Q.
        + intros x Vx. rewrite AK. destruct (Z.eq_dec x k) as [->|N]; [apply upd2_same|]. rewrite upd2_other by auto.
          apply M2; auto. unfold valid in Vx. destruct (Z_lt_dec x (j2+1)); auto. exfalso. apply (J2 x); [lia|exact Vx].
      - exists a2. split.
        + do 2 f_equal. rewrite (term_zero k (0+k)%Z); [ring|lia|lia|unfold valid, pk in *; lia].
        + intros x Vx. apply M2; auto. destruct (Z_lt_dec x (j2+1)); auto. exfalso.
          destruct (Z.eq_dec x k) as [->|N]; [unfold valid, pk in *; lia|]. apply (J2 x); auto. unfold valid in Vx. lia.
    Qed.

    Lemma ders_row n a ders : (0 <= n <= p)%Z ->
      exists a' D, der_r p n ndu (a, ders) r = (a', D) /\
        forall x k, D x k = if (x =? r)%Z && (1 <=? k)%Z && (k <=? n)%Z then rsum (term k) (zseq 0 (k+1)) else ders x k.
    Proof.
      intros Hn. unfold der_r.
      pose (Inv := fun (k : Z) (st : (Z -> Z -> R) * Z * Z * (Z -> Z -> R)) => let '(a, s1, s2, D) := st in
        s1 <> s2 /\ row_ok (k-1) a s1 /\
        forall x k', D x k' = if (x =? r)%Z && (1 <=? k')%Z && (k' <? k)%Z then rsum (term k') (zseq 0 (k'+1)) else ders x k').
      assert (M : Inv (1 + n)%Z (fold_left (der_k p ndu r) (zseq 1 n) (upd2 a 0 0 1, 0%Z, 1%Z, ders))).
      { apply (fold_zseq_ind _ _ Inv); [lia| |].
        - split; [lia|]. split.
          + intros j V. unfold valid in V. assert (j = 0%Z) by lia. subst j. rewrite upd2_same. reflexivity.
          + intros x k. replace ((x =? r)%Z && (1 <=? k)%Z && (k <? 1)%Z) with false by lia. auto.
        - intros k [[[a1 s1] s2] D] Hk (I1 & I2 & I3).
          destruct (der_k_ok k a1 s1 s2 D ltac:(lia) I1 I2) as (a2 & -> & R2). split; [auto|]. split; [replace (k + 1 - 1)%Z with k by lia; exact R2|].
          intros x k'. unfold upd2. destruct ((x =? r)%Z && (k' =? k)%Z) eqn:E.
          + assert (k' = k) by lia. subst k'. replace ((x =? r)%Z && (1 <=? k)%Z && (k <? k + 1)%Z) with true by lia. auto.
          + rewrite I3. replace ((x =? r)%Z && (1 <=? k')%Z && (k' <? k + 1)%Z) with ((x =? r)%Z && (1 <=? k')%Z && (k' <? k)%Z) by lia. auto. }
      destruct (fold_left (der_k p ndu r) (zseq 1 n) (upd2 a 0 0 1, 0%Z, 1%Z, ders)) as [[[a1 s1] s2] D]. destruct M as (_ & _ & M).
      exists a1, D. split; auto. intros x k. rewrite M. replace (k <? 1 + n)%Z with (k <=? n)%Z by lia. reflexivity.
    Qed.
  End Ders.
End Table.
