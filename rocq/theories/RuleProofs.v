(** Quadrature tables: moments computed over the integers, lifted to all polynomials. *)
From Coq Require Import ZArith List Bool Lia Reals Lra Psatz.
From Coquelicot Require Import Coquelicot.
From Verif Require Import Prelude RealOrd AxisModel RuleModel RuleSpec.
Import ListNotations.
Open Scope R_scope.

Lemma Forall2_len {A B} (P : A -> B -> Prop) l l' : Forall2 P l l' -> length l = length l'.
Proof. induction 1; simpl; auto. Qed.

Lemma quad_ext X W f g : (forall x, f x = g x) -> quad X W f = quad X W g.
Proof. intros H. revert W; induction X as [|x X IH]; intros [|w W]; simpl; auto. rewrite H, IH. reflexivity. Qed.
Lemma quad_plus X W f g : quad X W (fun x => f x + g x) = quad X W f + quad X W g.
Proof. revert W; induction X as [|x X IH]; intros [|w W]; simpl; try lra. rewrite IH. lra. Qed.
Lemma quad_scal X W a f : quad X W (fun x => a * f x) = a * quad X W f.
Proof. revert W; induction X as [|x X IH]; intros [|w W]; simpl; try lra. rewrite IH. lra. Qed.

(** Integral of x^k over [-1,1]. *)
Definition mom (k : nat) : R := (1 - (-1)^(S k)) / INR (S k).
Lemma is_RInt_mono k : is_RInt (fun x => x^k) (-1) 1 (mom k).
Proof.
  unfold mom. replace ((1 - (-1)^(S k)) / INR (S k)) with (minus (1^(S k) / INR (S k)) ((-1)^(S k) / INR (S k))).
  2:{ rewrite pow1. unfold minus, plus, opp; simpl (AbelianGroup.sort _). cbn -[INR pow]. unfold Rdiv. ring. }
  apply (is_RInt_derive (fun x => x^(S k) / INR (S k)) (fun x => x^k)).
  - intros x _. auto_derive; auto. change (match k with O => 1 | S _ => INR k + 1 end) with (INR (S k)).
    field. apply not_0_INR; lia.
  - intros x _. apply continuity_pt_filterlim. apply derivable_continuous_pt, derivable_pt_pow.
Qed.

Section Err.
  Variables (X W : list R) (d : nat) (eps : R).
  Hypothesis Hmom : forall k, (k < d)%nat -> Rabs (quad X W (fun x => x^k) - mom k) <= eps.

  Lemma poly_err c : forall j, (j + length c <= d)%nat ->
    exists I, is_RInt (fun x => x^j * peval c x) (-1) 1 I /\
              Rabs (quad X W (fun x => x^j * peval c x) - I) <= eps * pnorm c.
  Proof.
    induction c as [|a c IH]; intros j Hj.
    - exists 0. simpl. split.
      + pose proof (is_RInt_const (-1) 1 (0 : R)) as H. unfold scal in H; simpl in H; unfold mult in H; simpl in H.
        rewrite Rmult_0_r in H. eapply is_RInt_ext; [|exact H]. intros; simpl; ring.
      + rewrite (quad_ext _ _ _ (fun x => 0 * x)) by (intros; lra). rewrite quad_scal.
        replace (0 * _ - 0) with 0 by ring. rewrite Rabs_R0. unfold pnorm; simpl. lra.
    - simpl in Hj. destruct (IH (S j) ltac:(lia)) as (I & HI & HE).
      exists (a * mom j + I). split.
      + apply is_RInt_ext with (fun x => plus (scal a (x^j)) (x^(S j) * peval c x)).
        { intros x _. unfold plus, scal; simpl. unfold mult; simpl. ring. }
        apply (is_RInt_plus (V:=R_NormedModule)); [|exact HI]. apply (is_RInt_scal (V:=R_NormedModule)). apply is_RInt_mono.
      + rewrite (quad_ext _ _ _ (fun x => a * x^j + x^(S j) * peval c x)).
        2:{ intros x; simpl. ring. }
        rewrite quad_plus, quad_scal.
        replace (a * quad X W (fun x => x^j) + quad X W (fun x => x^(S j) * peval c x) - (a * mom j + I))
          with (a * (quad X W (fun x => x^j) - mom j) + (quad X W (fun x => x^(S j) * peval c x) - I)) by ring.
        eapply Rle_trans; [apply Rabs_triang|]. rewrite Rabs_mult.
        pose proof (Hmom j ltac:(lia)) as H1. unfold pnorm in *; simpl.
        pose proof (Rabs_pos a). rewrite Rmult_plus_distr_l. apply Rplus_le_compat; [|exact HE].
        rewrite (Rmult_comm eps). apply Rmult_le_compat_l; auto.
  Qed.

  Lemma moments_integrate : integrates d eps (-1) 1 X W.
  Proof.
    intros c Hc. destruct (poly_err c 0 ltac:(simpl; lia)) as (I & HI & HE).
    assert (HI' : is_RInt (peval c) (-1) 1 I).
    { eapply is_RInt_ext; [|exact HI]. intros; simpl; ring. }
    rewrite (is_RInt_unique _ _ _ _ HI').
    rewrite (quad_ext _ _ _ (fun x => x^0 * peval c x)) by (intros; simpl; ring). exact HE.
  Qed.
End Err.

Definition near (z : Z) (r : R) : Prop := Rabs (r - dec z) <= / 2^53 * Rabs (dec z).
Definition nearx (z : Z) (r : R) : Prop := near z r /\ Rabs r <= 1.

Definition even_b (k : nat) : Z := if Nat.even k then 2 else 0.

(** Fixed point arithmetic with 64 binary digits, to keep the computations small. *)
Definition FX : Z := (2^64)%Z.
Definition fx (z : Z) : Z := (z * FX / S36)%Z.
Definition fmul (a b : Z) : Z := Z.shiftr (a * b) 64.
Fixpoint zp (z : Z) (k : nat) : Z := match k with O => FX | S k' => fmul (zp z k') (fx z) end.
Fixpoint fdot (ws ys : list Z) : Z :=
  match ws, ys with w :: ws', y :: ys' => (w * y + fdot ws' ys')%Z | _, _ => 0%Z end.
Fixpoint fstep (ys bs : list Z) : list Z :=
  match ys, bs with y :: ys', b :: bs' => fmul y b :: fstep ys' bs' | _, _ => [] end.
(** |(k+1) * sum w x^k - [k even] 2 F^2| * 10^16 <= (k+1) F^2 *)
Definition mom_ok (ws ys : list Z) (k : nat) : bool :=
  (Z.abs (Z.of_nat (S k) * fdot ws ys - even_b k * (FX * FX)) * 10^16 <=? Z.of_nat (S k) * (FX * FX))%Z.
Fixpoint moms_ok (ws bs ys : list Z) (k d : nat) : bool :=
  match d with O => true | S d' => mom_ok ws ys k && moms_ok ws bs (fstep ys bs) (S k) d' end.
Definition table_ok (d : nat) (xs ws : list Z) : bool :=
  ((length xs =? length ws)%nat && forallb (fun x => Z.abs x <=? S36)%Z xs && forallb (fun w => 0 <? w)%Z ws
  && (fold_right Z.add 0%Z ws <=? 3 * S36)%Z && ((length xs <=? 10)%nat && moms_ok (map fx ws) (map fx xs) (map (fun _ => FX) xs) 0 d)).

Lemma S36_pos : 0 < IZR S36.
Proof. apply IZR_lt. reflexivity. Qed.

Lemma mom_even k : mom k = IZR (even_b k) / INR (S k).
Proof.
  unfold mom, even_b. f_equal. destruct (Nat.even k) eqn:E.
  - apply Nat.even_spec in E. destruct E as [j ->]. rewrite pow_1_odd. lra.
  - assert (O : Nat.odd k = true) by (unfold Nat.odd; rewrite E; auto). apply Nat.odd_spec in O. destruct O as [j ->].
    replace (S (2*j+1)) with (2 * (S j))%nat by lia. rewrite pow_1_even. lra.
Qed.

Lemma moms_ok_all xs ws d : forall k, moms_ok (map fx ws) (map fx xs) (map (fun x => zp x k) xs) k d = true ->
  forall j, (k <= j < k + d)%nat -> mom_ok (map fx ws) (map (fun x => zp x j) xs) j = true.
Proof.
  induction d as [|d IH]; intros k H j Hj; [lia|]. cbn [moms_ok] in H. apply andb_true_iff in H. destruct H as [H1 H2].
  destruct (Nat.eq_dec j k) as [->|N]; auto. apply (IH (S k)); [|lia].
  replace (map (fun x => zp x (S k)) xs) with (fstep (map (fun x => zp x k) xs) (map fx xs)); auto.
  clear. induction xs as [|x xs IH]; simpl; auto. rewrite IH. reflexivity.
Qed.

Definition fR (z : Z) : R := IZR z / IZR FX.
Lemma FX_pos : 0 < IZR FX.
Proof. apply IZR_lt. reflexivity. Qed.
Lemma floor_err a b : (0 < b)%Z -> 0 <= IZR a / IZR b - IZR (a / b) <= 1.
Proof.
  intros Hb. pose proof (Z.div_mod a b ltac:(lia)) as E. pose proof (Z.mod_pos_bound a b Hb) as M.
  assert (P : 0 < IZR b) by (apply IZR_lt; auto). set (d := (a / b)%Z) in *. set (r := (a mod b)%Z) in *.
  rewrite E, plus_IZR, mult_IZR. replace ((IZR b * IZR d + IZR r) / IZR b - IZR d) with (IZR r / IZR b) by (field; lra).
  destruct M as [M1 M2]. apply IZR_le in M1. apply IZR_lt in M2. split.
  - apply Rmult_le_pos; auto. left. apply Rinv_0_lt_compat; auto.
  - apply (Rmult_le_reg_r (IZR b)); auto. unfold Rdiv. rewrite Rmult_assoc, Rinv_l; lra.
Qed.
Lemma fx_err z : Rabs (fR (fx z) - dec z) <= / IZR FX.
Proof.
  pose proof FX_pos as P. pose proof S36_pos as Q. pose proof (floor_err (z * FX) S36 ltac:(reflexivity)) as E.
  rewrite mult_IZR in E. unfold fR, dec. fold (fx z) in E.
  replace (IZR (fx z) / IZR FX - IZR z / IZR S36) with (- (/ IZR FX * (IZR z * IZR FX / IZR S36 - IZR (fx z)))) by (field; lra).
  rewrite Rabs_Ropp, Rabs_mult, (Rabs_pos_eq (/ _)) by (left; apply Rinv_0_lt_compat; auto).
  rewrite <- (Rmult_1_r (/ IZR FX)) at 2. apply Rmult_le_compat_l; [left; apply Rinv_0_lt_compat; auto|]. apply Rabs_le. lra.
Qed.
Lemma fmul_err a b : Rabs (fR (fmul a b) - fR a * fR b) <= / IZR FX.
Proof.
  pose proof FX_pos as P. pose proof (floor_err (a * b) FX ltac:(reflexivity)) as E. rewrite mult_IZR in E.
  unfold fmul. rewrite Z.shiftr_div_pow2 by lia. change (2^64)%Z with FX. set (c := (a * b / FX)%Z) in *. unfold fR.
  replace (IZR c / IZR FX - IZR a / IZR FX * (IZR b / IZR FX)) with (- (/ IZR FX * (IZR a * IZR b / IZR FX - IZR c))) by (field; lra).
  rewrite Rabs_Ropp, Rabs_mult, (Rabs_pos_eq (/ _)) by (left; apply Rinv_0_lt_compat; auto).
  rewrite <- (Rmult_1_r (/ IZR FX)) at 2. apply Rmult_le_compat_l; [left; apply Rinv_0_lt_compat; auto|]. apply Rabs_le. lra.
Qed.
Lemma fx_bound z : (Z.abs z <= S36)%Z -> (Z.abs (fx z) <= FX)%Z.
Proof.
  intros H. unfold fx. assert (0 < S36)%Z by reflexivity. assert (0 < FX)%Z by reflexivity. generalize dependent S36. generalize dependent FX.
  intros F HF S H HS. apply Z.abs_le. split.
  - apply Z.div_le_lower_bound; nia.
  - apply Z.div_le_upper_bound; nia.
Qed.
Lemma fmul_bound a b : (Z.abs a <= FX)%Z -> (Z.abs b <= FX)%Z -> (Z.abs (fmul a b) <= FX)%Z.
Proof.
  intros Ha Hb. unfold fmul. rewrite Z.shiftr_div_pow2 by lia. change (2^64)%Z with FX.
  assert (0 < FX)%Z by reflexivity. generalize dependent FX. intros F Ha Hb HF.
  assert (E : (Z.abs (a * b) <= F * F)%Z) by (rewrite Z.abs_mul; nia). apply Z.abs_le in E. apply Z.abs_le. split.
  - apply Z.div_le_lower_bound; nia.
  - apply Z.div_le_upper_bound; nia.
Qed.
Lemma zp_bound z k : (Z.abs z <= S36)%Z -> (Z.abs (zp z k) <= FX)%Z.
Proof.
  intros H. induction k as [|k IH]; [cbn [zp]; unfold FX; lia|]. cbn [zp]. apply fmul_bound; auto. apply fx_bound; auto.
Qed.
Lemma fR_bound y : (Z.abs y <= FX)%Z -> Rabs (fR y) <= 1.
Proof.
  intros H. pose proof FX_pos as P. unfold fR, Rdiv. rewrite Rabs_mult, <- abs_IZR, (Rabs_pos_eq (/ _)) by (left; apply Rinv_0_lt_compat; auto).
  apply IZR_le in H. apply (Rmult_le_reg_r (IZR FX)); auto. rewrite Rmult_assoc, Rinv_l; lra.
Qed.
Lemma dec_bound z : (Z.abs z <= S36)%Z -> Rabs (dec z) <= 1.
Proof.
  intros H. pose proof S36_pos as P. unfold dec, Rdiv. rewrite Rabs_mult, <- abs_IZR, (Rabs_pos_eq (/ _)) by (left; apply Rinv_0_lt_compat; auto).
  apply IZR_le in H. apply (Rmult_le_reg_r (IZR S36)); auto. rewrite Rmult_assoc, Rinv_l; lra.
Qed.
Lemma zp_err z k : (Z.abs z <= S36)%Z -> Rabs (fR (zp z k) - dec z ^ k) <= 2 * INR k * / IZR FX.
Proof.
  intros H. pose proof FX_pos as P. assert (Pu : 0 < / IZR FX) by (apply Rinv_0_lt_compat; auto). induction k as [|k IH].
  - cbn [zp]. unfold fR. simpl. replace (IZR FX / IZR FX - 1) with 0 by (field; lra). rewrite Rabs_R0. lra.
  - rewrite S_INR. cbn [zp pow].
    pose proof (fmul_err (zp z k) (fx z)) as E1. pose proof (fx_err z) as E2. pose proof (fR_bound _ (zp_bound z k H)) as B.
    pose proof (dec_bound z H) as D. set (y := fR (zp z k)) in *. set (b := fR (fx z)) in *. set (x := dec z) in *. set (u := / IZR FX) in *.
    replace (fR (fmul (zp z k) (fx z)) - x * x^k) with ((fR (fmul (zp z k) (fx z)) - y * b) + (y * (b - x) + x * (y - x^k))) by ring.
    eapply Rle_trans; [apply Rabs_triang|]. pose proof (Rabs_triang (y * (b - x)) (x * (y - x^k))) as T. rewrite !Rabs_mult in T.
    assert (T1 : Rabs y * Rabs (b - x) <= u).
    { pose proof (Rabs_pos y). pose proof (Rabs_pos (b - x)). nra. }
    assert (T2 : Rabs x * Rabs (y - x^k) <= 2 * INR k * u).
    { pose proof (Rabs_pos x). pose proof (Rabs_pos (y - x^k)). nra. }
    lra.
Qed.

Lemma fdot_err k : forall xs ws, length xs = length ws -> List.Forall (fun x => Z.abs x <= S36)%Z xs -> List.Forall (fun w => 0 < w)%Z ws ->
  Rabs (IZR (fdot (map fx ws) (map (fun x => zp x k) xs)) / (IZR FX * IZR FX) - quad (map dec xs) (map dec ws) (fun x => x^k))
  <= / IZR FX * (INR (length xs) + 2 * INR k * (IZR (fold_right Z.add 0%Z ws) / IZR S36)).
Proof.
  pose proof FX_pos as P. pose proof S36_pos as P'. assert (Pu : 0 < / IZR FX) by (apply Rinv_0_lt_compat; auto).
  induction xs as [|x xs IH]; intros [|w ws] E A B; try discriminate.
  - simpl. unfold Rdiv. rewrite !Rmult_0_l, Rminus_0_r, Rabs_R0. lra.
  - inversion A as [|? ? A1 A2]; inversion B as [|? ? B1 B2]; subst. injection E as E. specialize (IH ws E A2 B2).
    cbn [map fdot quad length fold_right]. rewrite plus_IZR, mult_IZR, plus_IZR, S_INR.
    pose proof (zp_err x k A1) as Z1. pose proof (fx_err w) as Z2. pose proof (fR_bound _ (zp_bound x k A1)) as Z3.
    assert (Dw : 0 < dec w). { unfold dec. apply IZR_lt in B1. apply Rmult_lt_0_compat; auto. apply Rinv_0_lt_compat; auto. }
    set (f := fdot (map fx ws) (map (fun x => zp x k) xs)) in *. set (q := quad (map dec xs) (map dec ws) (fun x => x^k)) in *.
    replace ((IZR (fx w) * IZR (zp x k) + IZR f) / (IZR FX * IZR FX) - (dec w * dec x ^ k + q))
      with (((fR (fx w) - dec w) * fR (zp x k) + dec w * (fR (zp x k) - dec x ^ k)) + (IZR f / (IZR FX * IZR FX) - q))
      by (unfold fR; field; lra).
    eapply Rle_trans; [apply Rabs_triang|]. pose proof (Rabs_triang ((fR (fx w) - dec w) * fR (zp x k)) (dec w * (fR (zp x k) - dec x ^ k))) as T.
    rewrite !Rabs_mult, (Rabs_pos_eq (dec w)) in T by lra. set (u := / IZR FX) in *.
    assert (T1 : Rabs (fR (fx w) - dec w) * Rabs (fR (zp x k)) <= u).
    { pose proof (Rabs_pos (fR (fx w) - dec w)). pose proof (Rabs_pos (fR (zp x k))). nra. }
    assert (T2 : dec w * Rabs (fR (zp x k) - dec x ^ k) <= dec w * (2 * INR k * u)) by (apply Rmult_le_compat_l; lra).
    replace ((IZR w + IZR (fold_right Z.add 0%Z ws)) / IZR S36) with (dec w + IZR (fold_right Z.add 0%Z ws) / IZR S36) by (unfold dec; field; lra).
    lra.
Qed.

Lemma mom_ok_R xs ws k : length xs = length ws -> List.Forall (fun x => Z.abs x <= S36)%Z xs -> List.Forall (fun w => 0 < w)%Z ws ->
  (length xs <= 10)%nat -> (k < 20)%nat -> IZR (fold_right Z.add 0%Z ws) / IZR S36 <= 3 ->
  mom_ok (map fx ws) (map (fun x => zp x k) xs) k = true ->
  Rabs (quad (map dec xs) (map dec ws) (fun x => x^k) - mom k) <= / 10^15.
Proof.
  intros L A B Ln Hk HS H. pose proof (fdot_err k xs ws L A B) as E. unfold mom_ok in H. apply Z.leb_le, IZR_le in H. pose proof FX_pos as P.
  rewrite mom_even. set (M := fdot (map fx ws) (map (fun x => zp x k) xs)) in *. set (T := IZR FX * IZR FX) in *.
  assert (PT : 0 < T) by (unfold T; nra).
  assert (PK : 0 < INR (S k)) by (apply lt_0_INR; lia).
  rewrite !mult_IZR, abs_IZR, minus_IZR, !mult_IZR, <- INR_IZR_INZ in H. fold T in H.
  assert (G : Rabs (IZR M / T - IZR (even_b k) / INR (S k)) <= / 10^16).
  { replace (IZR M / T - IZR (even_b k) / INR (S k)) with ((INR (S k) * IZR M - IZR (even_b k) * T) / (INR (S k) * T)) by (field; lra).
    unfold Rdiv. rewrite Rabs_mult, (Rabs_pos_eq (/ _)).
    2:{ left. apply Rinv_0_lt_compat. nra. }
    apply (Rmult_le_reg_r (INR (S k) * T)); [nra|]. rewrite Rmult_assoc, Rinv_l, Rmult_1_r by nra.
    apply (Rmult_le_reg_r (10^16)); [lra|]. rewrite (Rmult_comm (/ _)), Rmult_assoc, Rinv_l, Rmult_1_r by lra.
    change (IZR (10^16)) with (IZR (Z.pow 10 (Z.of_nat 16))) in H. rewrite <- pow_IZR in H. exact H. }
  set (q := quad (map dec xs) (map dec ws) (fun x => x^k)) in *.
  replace (q - IZR (even_b k) / INR (S k)) with (- (IZR M / T - q) + (IZR M / T - IZR (even_b k) / INR (S k))) by ring.
  eapply Rle_trans; [apply Rabs_triang|]. rewrite Rabs_Ropp.
  assert (Q1 : INR (length xs) <= 10). { replace 10 with (INR 10) by (simpl; lra). apply le_INR; lia. }
  assert (Q2 : INR k <= 20). { replace 20 with (INR 20) by (simpl; lra). apply le_INR; lia. }
  assert (Q3 : 0 <= INR k) by apply pos_INR.
  assert (Q4 : / IZR FX <= / 10^19).
  { apply Rinv_le_contravar; [lra|]. change (10^19) with (10^19)%R. rewrite (pow_IZR 10 19). apply IZR_le. vm_compute. discriminate. }
  assert (Q5 : 0 < / IZR FX) by (apply Rinv_0_lt_compat; auto).
  assert (Q6 : INR (length xs) + 2 * INR k * (IZR (fold_right Z.add 0%Z ws) / IZR S36) <= 130) by nra.
  assert (Q7 : / IZR FX * (INR (length xs) + 2 * INR k * (IZR (fold_right Z.add 0%Z ws) / IZR S36)) <= / IZR FX * 130) by (apply Rmult_le_compat_l; lra).
  lra.
Qed.

Lemma pow_diff x y k : Rabs x <= 1 -> Rabs y <= 1 -> Rabs (x^k - y^k) <= INR k * Rabs (x - y).
Proof.
  intros Hx Hy. induction k as [|k IH].
  - simpl. rewrite Rminus_diag_eq, Rabs_R0 by auto. lra.
  - rewrite S_INR. simpl pow. replace (x * x^k - y * y^k) with (x * (x^k - y^k) + (x - y) * y^k) by ring.
    eapply Rle_trans; [apply Rabs_triang|]. rewrite !Rabs_mult, Rmult_plus_distr_r, Rmult_1_l.
    assert (Rabs (y^k) <= 1).
    { rewrite <- RPow_abs. rewrite <- (pow1 k). apply pow_incr. split; [apply Rabs_pos|auto]. }
    pose proof (Rabs_pos (x^k - y^k)). pose proof (Rabs_pos (x - y)). pose proof (Rabs_pos (y^k)). pose proof (Rabs_pos x).
    apply Rplus_le_compat; nra.
Qed.

Lemma perturb k : forall xs X, Forall2 nearx xs X -> List.Forall (fun x => Z.abs x <= S36)%Z xs ->
  forall ws W, Forall2 near ws W -> List.Forall (fun w => 0 < w)%Z ws -> length xs = length ws ->
  Rabs (quad X W (fun x => x^k) - quad (map dec xs) (map dec ws) (fun x => x^k))
  <= / 2^53 * INR (S k) * (IZR (fold_right Z.add 0%Z ws) / IZR S36).
Proof.
  pose proof S36_pos as P. set (u := / 2^53). assert (Pu : 0 < u) by (unfold u; apply Rinv_0_lt_compat; lra).
  induction 1 as [|x X0 xs X [H1 H2] HX IH]; intros A ws W HW B E.
  - destruct ws; [|discriminate]. inversion HW; subst. simpl quad. rewrite Rminus_diag_eq, Rabs_R0 by auto. simpl fold_right. unfold Rdiv. rewrite Rmult_0_l. lra.
  - inversion HW as [|w W0 ws' W' Hw HW']; subst; [discriminate|]. inversion A as [|? ? A1 A2]; inversion B as [|? ? B1 B2]; subst.
    injection E as E. specialize (IH A2 _ _ HW' B2 E).
    simpl quad. simpl map. simpl quad. simpl fold_right. rewrite plus_IZR.
    assert (D : Rabs (dec x) <= 1).
    { unfold dec, Rdiv. rewrite Rabs_mult, (Rabs_pos_eq (/ _)) by (left; apply Rinv_0_lt_compat; auto).
      rewrite <- abs_IZR. apply IZR_le in A1. apply (Rmult_le_reg_r (IZR S36)); auto. rewrite Rmult_assoc, Rinv_l; lra. }
    assert (Dw : 0 < dec w). { unfold dec. apply IZR_lt in B1. apply Rmult_lt_0_compat; auto. apply Rinv_0_lt_compat; auto. }
    unfold near in *. fold u in H1, Hw.
    pose proof (pow_diff X0 (dec x) k H2 D) as PD.
    assert (PX : Rabs (X0^k) <= 1).
    { rewrite <- RPow_abs. rewrite <- (pow1 k). apply pow_incr. split; [apply Rabs_pos|auto]. }
    set (a := X0^k) in *. set (b := dec x ^ k) in *.
    replace (W0 * a + quad X W' (fun x => x^k) - (dec w * b + quad (map dec xs) (map dec ws') (fun x => x^k)))
      with ((W0 - dec w) * a + dec w * (a - b) + (quad X W' (fun x => x^k) - quad (map dec xs) (map dec ws') (fun x => x^k))) by ring.
    eapply Rle_trans; [apply Rabs_triang|]. unfold Rdiv. rewrite Rmult_plus_distr_r, Rmult_plus_distr_l.
    apply Rplus_le_compat; [|exact IH]. change (IZR w * / IZR S36) with (dec w).
    eapply Rle_trans; [apply Rabs_triang|]. rewrite !Rabs_mult. rewrite (Rabs_pos_eq (dec w)) in * by lra.
    rewrite S_INR.
    assert (Q1 : Rabs (W0 - dec w) * Rabs a <= u * dec w).
    { pose proof (Rabs_pos (W0 - dec w)). pose proof (Rabs_pos a). nra. }
    assert (Q2 : Rabs (a - b) <= INR k * u).
    { eapply Rle_trans; [exact PD|]. apply Rmult_le_compat_l; [apply pos_INR|]. nra. }
    assert (Q3 : dec w * Rabs (a - b) <= dec w * (INR k * u)) by (apply Rmult_le_compat_l; lra). lra.
Qed.

Lemma table_integrates d xs ws X W : (d <= 20)%nat -> table_ok d xs ws = true ->
  Forall2 nearx xs X -> Forall2 near ws W -> integrates d (/ 10^13) (-1) 1 X W.
Proof.
  intros Hd HT HX HW. unfold table_ok in HT. rewrite !andb_true_iff in HT. destruct HT as ((((H1 & H2) & H3) & H4) & H5).
  apply Nat.eqb_eq in H1. rewrite forallb_forall in H2, H3. apply Z.leb_le, IZR_le in H4. rewrite mult_IZR in H4.
  pose proof S36_pos as P.
  apply moments_integrate.
  destruct H5 as [H6 H5]. apply Nat.leb_le in H6.
  assert (FA : List.Forall (fun x => Z.abs x <= S36)%Z xs) by (apply List.Forall_forall; intros x Hx; apply H2 in Hx; apply Z.leb_le; auto).
  assert (FB : List.Forall (fun w => 0 < w)%Z ws) by (apply List.Forall_forall; intros x Hx; apply H3 in Hx; apply Z.ltb_lt; auto).
  assert (Q3 : IZR (fold_right Z.add 0%Z ws) / IZR S36 <= 3).
  { apply (Rmult_le_reg_r (IZR S36)); auto. unfold Rdiv. rewrite Rmult_assoc, Rinv_l; lra. }
  intros k Hk.
  assert (HM : mom_ok (map fx ws) (map (fun x => zp x k) xs) k = true) by (apply (moms_ok_all xs ws d 0); [exact H5|lia]).
  pose proof (mom_ok_R xs ws k H1 FA FB H6 ltac:(lia) Q3 HM) as M.
  pose proof (perturb k xs X HX FA ws W HW FB H1) as Q.
  assert (Q4 : INR (S k) <= 20). { replace 20 with (INR 20) by (simpl; lra). apply le_INR; lia. }
  assert (Q5 : 0 <= INR (S k)) by apply pos_INR.
  assert (Q6 : INR (S k) * (IZR (fold_right Z.add 0%Z ws) / IZR S36) <= 60) by nra.
  replace (quad X W (fun x => x^k) - mom k)
    with ((quad X W (fun x => x^k) - quad (map dec xs) (map dec ws) (fun x => x^k))
          + (quad (map dec xs) (map dec ws) (fun x => x^k) - mom k)) by ring.
  eapply Rle_trans; [apply Rabs_triang|].
  assert (u1 : / 2^53 * 60 <= / 10^14).
  { apply (Rmult_le_reg_r (10^14 * 2^53)); [lra|]. replace (/ 2^53 * 60 * (10^14 * 2^53)) with (60 * 10^14) by (field; lra).
    replace (/ 10^14 * (10^14 * 2^53)) with (2^53) by (field; lra). lra. }
  assert (u2 : / 10^14 + / 10^15 <= / 10^13) by lra.
  assert (0 < / 2^53) by (apply Rinv_0_lt_compat; lra). nra.
Qed.

Lemma dec_opp z : dec (- z) = - dec z.
Proof. unfold dec. rewrite opp_IZR. unfold Rdiv. ring. Qed.
Lemma near_opp z r : near z r -> near (- z) (- r).
Proof.
  unfold near. rewrite dec_opp, Rabs_Ropp. intros H. replace (- r - - dec z) with (- (r - dec z)) by ring. rewrite Rabs_Ropp. exact H.
Qed.
Lemma nearx_opp z r : nearx z r -> nearx (- z) (- r).
Proof. intros [H1 H2]. split; [apply near_opp; auto|rewrite Rabs_Ropp; auto]. Qed.

Section Lit.
  Variable lit : Z -> R.
  Hypothesis Hlit : rounds lit.
  Lemma lit_near z : near z (lit z).
  Proof. apply Hlit. Qed.
  Lemma lit_nearx z : (Z.abs z <=? S36)%Z = true -> nearx z (lit z).
  Proof. intros H. split; [apply lit_near|apply Hlit; apply Z.leb_le; auto]. Qed.

  Definition tables_near (T : forall {A}, (Z -> A) -> (A -> A) -> Z -> option (list A * list A)) (q : Z) : Prop :=
    match T lit Ropp q, T (fun z => z) Z.opp q with
    | Some (X, W), Some (xs, ws) => Forall2 nearx xs X /\ Forall2 near ws W /\ symmetric X W
    | _, _ => False
    end.

  Lemma lit0 : lit 0 = 0.
  Proof.
    pose proof (lit_near 0) as H. unfold near, dec in H. unfold Rdiv in H. rewrite Rmult_0_l, Rminus_0_r, Rabs_R0, Rmult_0_r in H.
    destruct (Req_dec (lit 0) 0) as [E|E]; auto. apply Rabs_pos_lt in E. lra.
  Qed.
End Lit.

Ltac near_lists :=
  repeat match goal with
  | |- Forall2 _ [] [] => constructor
  | |- Forall2 _ (_ :: _) (_ :: _) => constructor
  | |- nearx (Z.opp _) (Ropp _) => apply nearx_opp
  | |- near (Z.opp _) (Ropp _) => apply near_opp
  | H : rounds ?lit |- nearx ?z (?lit ?z) => apply (lit_nearx lit H z); reflexivity
  | H : rounds ?lit |- near ?z (?lit ?z) => apply (lit_near lit H z)
  end.
Ltac one_table H :=
  match goal with |- tables_near ?l ?T ?q => unfold tables_near; cbv beta iota zeta delta [gauss_legendre gauss_lobatto] end;
  split; [near_lists | split; [near_lists | split; [cbn [rev app map]; rewrite ?(lit0 _ H), ?Ropp_involutive, ?Ropp_0; reflexivity | reflexivity]]].

Lemma legendre_near lit q : rounds lit -> (1 <= q <= 10)%Z -> tables_near lit (@gauss_legendre) q.
Proof.
  intros H Hq.
  assert (C : (q = 1 \/ q = 2 \/ q = 3 \/ q = 4 \/ q = 5 \/ q = 6 \/ q = 7 \/ q = 8 \/ q = 9 \/ q = 10)%Z) by lia.
  repeat (destruct C as [-> | C]; [one_table H|]). subst q. one_table H.
Qed.
Lemma lobatto_near lit q : rounds lit -> (2 <= q <= 10)%Z -> tables_near lit (@gauss_lobatto) q.
Proof.
  intros H Hq.
  assert (C : (q = 2 \/ q = 3 \/ q = 4 \/ q = 5 \/ q = 6 \/ q = 7 \/ q = 8 \/ q = 9 \/ q = 10)%Z) by lia.
  repeat (destruct C as [-> | C]; [one_table H|]). subst q. one_table H.
Qed.

Definition ztable_ok (T : option (list Z * list Z)) (q d : nat) : bool :=
  match T with Some (xs, ws) => (length xs =? q)%nat && table_ok d xs ws | None => false end.
Lemma legendre_ok q : (1 <= q <= 10)%Z -> ztable_ok (gauss_legendre (fun z => z) Z.opp q) (Z.to_nat q) (Z.to_nat (2*q)) = true.
Proof.
  intros Hq.
  assert (C : (q = 1 \/ q = 2 \/ q = 3 \/ q = 4 \/ q = 5 \/ q = 6 \/ q = 7 \/ q = 8 \/ q = 9 \/ q = 10)%Z) by lia.
  repeat (destruct C as [-> | C]; [vm_cast_no_check (eq_refl true)|]). subst q. vm_cast_no_check (eq_refl true).
Qed.
Lemma lobatto_ok q : (2 <= q <= 10)%Z -> ztable_ok (gauss_lobatto (fun z => z) Z.opp q) (Z.to_nat q) (Z.to_nat (2*q-2)) = true.
Proof.
  intros Hq.
  assert (C : (q = 2 \/ q = 3 \/ q = 4 \/ q = 5 \/ q = 6 \/ q = 7 \/ q = 8 \/ q = 9 \/ q = 10)%Z) by lia.
  repeat (destruct C as [-> | C]; [vm_cast_no_check (eq_refl true)|]). subst q. vm_cast_no_check (eq_refl true).
Qed.

Lemma near_pos z r : (0 < z)%Z -> near z r -> 0 < r.
Proof.
  intros Hz H. unfold near in H. assert (D : 0 < dec z).
  { unfold dec. apply IZR_lt in Hz. apply Rmult_lt_0_compat; auto. apply Rinv_0_lt_compat, S36_pos. }
  rewrite (Rabs_pos_eq (dec z)) in H by lra. assert (/ 2^53 <= / 2) by lra.
  apply Rabs_le_between in H. nra.
Qed.

(** What a user relies on in a table of q points, exact for polynomials of degree < d. *)
Definition good_table (q : Z) (d : nat) (X W : list R) : Prop :=
  length X = Z.to_nat q /\ length W = Z.to_nat q /\ (List.Forall (fun x => -1 <= x <= 1) X) /\ (List.Forall (fun w => 0 < w) W) /\
  symmetric X W /\ Rabs (sumR W - 2) <= / 10^13 /\ integrates d (/ 10^13) (-1) 1 X W.

Lemma quad_one X W : length X = length W -> quad X W (peval [1]) = sumR W.
Proof. revert W; induction X as [|x X IH]; intros [|w W] E; simpl in *; try discriminate; auto. rewrite IH by lia. ring. Qed.
Lemma RInt_one a b : RInt (peval [1]) a b = b - a.
Proof.
  rewrite (RInt_ext _ (fun _ => 1)) by (intros; simpl; ring). rewrite RInt_const. unfold scal; simpl; unfold mult; simpl. ring.
Qed.

Lemma good_from_near q d X W xs ws : (1 <= d <= 20)%nat -> ztable_ok (Some (xs, ws)) (Z.to_nat q) d = true ->
  Forall2 nearx xs X -> Forall2 near ws W -> symmetric X W -> good_table q d X W.
Proof.
  intros Hd HT HX HW HS. unfold ztable_ok in HT. apply andb_true_iff in HT. destruct HT as [H1 HT]. apply Nat.eqb_eq in H1.
  pose proof HT as HT'. unfold table_ok in HT'. rewrite !andb_true_iff in HT'. destruct HT' as ((((L & H2) & H3) & H4) & H5).
  apply Nat.eqb_eq in L. pose proof (Forall2_len _ _ _ HX) as LX. pose proof (Forall2_len _ _ _ HW) as LW.
  pose proof (table_integrates d xs ws X W ltac:(lia) HT HX HW) as HI.
  unfold good_table. split; [congruence|]. split; [congruence|]. split; [|split; [|split; [auto|split; [|exact HI]]]].
  - clear -HX. induction HX as [|? ? ? ? [_ H]]; constructor; auto. apply Rabs_le_between in H. lra.
  - rewrite forallb_forall in H3. clear -HW H3. induction HW as [|w r ws W H HW IH]; constructor.
    + apply near_pos with w; auto. apply Z.ltb_lt, H3. left; auto.
    + apply IH. intros; apply H3. right; auto.
  - pose proof (HI [1] ltac:(simpl; lia)) as Q. rewrite quad_one, RInt_one in Q by congruence.
    unfold pnorm in Q; simpl in Q. rewrite Rabs_R1 in Q. replace (1 - -1) with 2 in Q by ring. lra.
Qed.

Lemma legendre_good lit q : rounds lit -> (1 <= q <= 10)%Z ->
  exists X W, gauss_legendre lit Ropp q = Some (X, W) /\ good_table q (Z.to_nat (2*q)) X W.
Proof.
  intros H Hq. pose proof (legendre_near lit q H Hq) as N. pose proof (legendre_ok q Hq) as K. unfold tables_near in N.
  destruct (gauss_legendre lit Ropp q) as [[X W]|]; [|contradiction].
  destruct (gauss_legendre (fun z => z) Z.opp q) as [[xs ws]|]; [|contradiction]. destruct N as (N1 & N2 & N3).
  exists X, W. split; auto. apply good_from_near with xs ws; auto. lia.
Qed.
Lemma lobatto_good lit q : rounds lit -> (2 <= q <= 10)%Z ->
  exists X W, gauss_lobatto lit Ropp q = Some (X, W) /\ good_table q (Z.to_nat (2*q-2)) X W.
Proof.
  intros H Hq. pose proof (lobatto_near lit q H Hq) as N. pose proof (lobatto_ok q Hq) as K. unfold tables_near in N.
  destruct (gauss_lobatto lit Ropp q) as [[X W]|]; [|contradiction].
  destruct (gauss_lobatto (fun z => z) Z.opp q) as [[xs ws]|]; [|contradiction]. destruct N as (N1 & N2 & N3).
  exists X, W. split; auto. apply good_from_near with xs ws; auto. lia.
Qed.
