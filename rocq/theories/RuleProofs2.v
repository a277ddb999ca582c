(** Rule state machine and the mapping of a rule to the elements. *)
From Coq Require Import ZArith List Bool Lia Reals Lra Psatz Permutation Sorted.
From Coquelicot Require Import Coquelicot.
From Verif Require Import Prelude RealOrd AxisModel AxisSpec Box GridSpec GridProofs BCProofs2 RuleModel RuleSpec RuleProofs.
Import ListNotations.
Open Scope R_scope.

Section Machine.
  Variable lit : Z -> R.

  Lemma legendre_len q X W : gauss_legendre lit Ropp q = Some (X, W) -> length X = Z.to_nat q /\ length W = Z.to_nat q.
  Proof.
    intros H. destruct (Z_lt_dec q 1); [destruct q; try lia; discriminate|].
    destruct (Z_le_dec q 10).
    - assert (C : (q = 1 \/ q = 2 \/ q = 3 \/ q = 4 \/ q = 5 \/ q = 6 \/ q = 7 \/ q = 8 \/ q = 9 \/ q = 10)%Z) by lia.
      repeat (destruct C as [-> | C]; [injection H as <- <-; split; reflexivity|]). subst q; injection H as <- <-; split; reflexivity.
    - exfalso. destruct q as [|q|q]; try lia. do 4 (destruct q as [q|q|]; try discriminate; try lia).
  Qed.
  Lemma legendre_none q : ~ (1 <= q <= 10)%Z -> gauss_legendre lit Ropp q = None.
  Proof. intros H. destruct q as [|q|q]; auto. do 4 (destruct q as [q|q|]; auto; try (exfalso; lia)). Qed.
  Lemma lobatto_none q : ~ (2 <= q <= 10)%Z -> gauss_lobatto lit Ropp q = None.
  Proof. intros H. destruct q as [|q|q]; auto. do 4 (destruct q as [q|q|]; auto; try (exfalso; lia)). Qed.
  Lemma lobatto_len q X W : gauss_lobatto lit Ropp q = Some (X, W) -> length X = Z.to_nat q /\ length W = Z.to_nat q.
  Proof.
    intros H. destruct (Z_lt_dec q 2); [rewrite lobatto_none in H by lia; discriminate|].
    destruct (Z_le_dec q 10); [|rewrite lobatto_none in H by lia; discriminate].
    assert (C : (q = 2 \/ q = 3 \/ q = 4 \/ q = 5 \/ q = 6 \/ q = 7 \/ q = 8 \/ q = 9 \/ q = 10)%Z) by lia.
    repeat (destruct C as [-> | C]; [injection H as <- <-; split; reflexivity|]). subst q; injection H as <- <-; split; reflexivity.
  Qed.

  Lemma length_zeros n : length (zeros n) = Z.to_nat n.
  Proof. unfold zeros. rewrite map_length. apply length_zseq. Qed.

  (** IGARuleSetUp on a rule whose arrays, if any, have nqp entries. *)
  Lemma setup_usable r r' : rule_setup lit r = (Ok, r') ->
    (forall X, ru_point r = Some X -> length X = Z.to_nat (ru_nqp r)) ->
    (forall W, ru_weight r = Some W -> length W = Z.to_nat (ru_nqp r)) ->
    usable lit r' /\ ru_nqp r' = ru_nqp r /\ ru_type r' = ru_type r.
  Proof.
    unfold rule_setup. destruct (ru_nqp r <? 1)%Z eqn:E; [discriminate|]. apply Z.ltb_ge in E. intros H HX HW.
    set (X := match ru_point r with Some X => X | None => zeros (ru_nqp r) end) in *.
    set (W := match ru_weight r with Some W => W | None => zeros (ru_nqp r) end) in *.
    assert (LX : length X = Z.to_nat (ru_nqp r)).
    { unfold X. destruct (ru_point r); [apply HX; auto|apply length_zeros]. }
    assert (LW : length W = Z.to_nat (ru_nqp r)).
    { unfold W. destruct (ru_weight r); [apply HW; auto|apply length_zeros]. }
    unfold compute_rule in H.
    destruct (ru_type r) eqn:T.
    - destruct (gauss_legendre lit Ropp (ru_nqp r)) as [[X' W']|] eqn:G; [|discriminate]. injection H as <-.
      destruct (legendre_len _ _ _ G). split; [right; simpl; split; [lia|exists X', W'; repeat split; auto]|split; auto].
    - destruct (gauss_lobatto lit Ropp (ru_nqp r)) as [[X' W']|] eqn:G; [|discriminate]. injection H as <-.
      destruct (lobatto_len _ _ _ G). split; [right; simpl; split; [lia|exists X', W'; repeat split; auto]|split; auto].
    - destruct (gauss_legendre lit Ropp (ru_nqp r)) as [[X' W']|] eqn:G; [|discriminate]. injection H as <-.
      destruct (legendre_len _ _ _ G). split; [right; simpl; split; [lia|exists X', W'; repeat split; auto]|split; auto].
    - injection H as <-. split; [right; simpl; split; [lia|exists X, W; repeat split; auto]|split; auto].
  Qed.

  Lemma usable_len r : usable lit r ->
    (forall X, ru_point r = Some X -> length X = Z.to_nat (ru_nqp r)) /\ (forall W, ru_weight r = Some W -> length W = Z.to_nat (ru_nqp r)).
  Proof.
    intros [(E & P & Q)|(E & X & W & P & Q & LX & LW & _)]; rewrite P, Q; split; intros ? H; try discriminate; injection H as <-; auto.
  Qed.

  Lemma set_size_usable n r r' : rule_set_size lit n r = (Ok, r') -> usable lit r ->
    usable lit r' /\ ru_nqp r' = n /\ ru_type r' = ru_type r.
  Proof.
    unfold rule_set_size. destruct (n <? 1)%Z eqn:E; [discriminate|]. destruct (ru_nqp r =? n)%Z eqn:E2.
    - intros H U. injection H as <-. split; auto. apply Z.eqb_eq in E2. auto.
    - intros H U. apply setup_usable in H; simpl in *; auto; discriminate.
  Qed.

  Lemma step_usable op r r' : op_valid op -> rule_step lit op r = (Ok, r') -> usable lit r -> usable lit r'.
  Proof.
    intros Hv H U. destruct op; simpl in H.
    - unfold rule_set_type in H. destruct (rtype_eqb (ru_type r) t) eqn:E; [injection H as <-; auto|].
      cbn [ru_nqp] in H. destruct (0 <? ru_nqp r)%Z eqn:E2.
      + destruct (usable_len r U) as [A B]. apply setup_usable in H; simpl in *; auto. apply H.
      + injection H as <-. apply Z.ltb_ge in E2. left. destruct U as [(U1 & U2 & U3)|(U1 & _)]; [auto|lia].
    - apply set_size_usable in H; auto. apply H.
    - destruct (usable_len r U) as [A B]. apply setup_usable in H; auto. apply H.
    - unfold rule_set_rule in H. destruct (rule_set_size lit q _) as [s r1] eqn:E. destruct s; try discriminate. injection H as <-.
      assert (U' : usable lit (mk_rule RUser (ru_nqp r) (ru_point r) (ru_weight r))).
      { destruct U as [(U1 & U2 & U3)|(U1 & X & W & U2 & U3 & L1 & L2 & _)]; [left; auto|right; simpl; split; auto; exists X, W; auto 10]. }
      assert (1 <= q)%Z. { unfold rule_set_size in E. destruct (q <? 1)%Z eqn:E1; [discriminate|lia]. }
      apply set_size_usable in E; auto. destruct E as (Ur & En & Et). simpl in Et. simpl in Hv.
      right. cbn [ru_nqp ru_type ru_point ru_weight]. rewrite En. split; [lia|].
      exists (firstn (Z.to_nat q) x), (firstn (Z.to_nat q) w). rewrite !firstn_length, Et. repeat split; auto; lia.
    - injection H as <-. left. auto.
  Qed.

  Lemma run_usable ops : forall r, Forall2 (fun op s => s = Ok) ops (fst (rule_run lit ops r)) -> (forall op, In op ops -> op_valid op) ->
    usable lit r -> usable lit (snd (rule_run lit ops r)).
  Proof.
    induction ops as [|op ops IH]; intros r H Hv U; auto.
    simpl in *. destruct (rule_step lit op r) as [s r1] eqn:E. specialize (IH r1). destruct (rule_run lit ops r1) as [l r2]. simpl in *.
    inversion H; subst. apply IH; auto. apply step_usable with op r; auto.
  Qed.

  (** After a failed IGARuleSetSize (or SetUp), IGARuleSetUp fails again and changes nothing. *)
  Lemma setup_fails_again r r' : rule_setup lit r = (ErrRange, r') -> rule_setup lit r' = (ErrRange, r').
  Proof.
    unfold rule_setup. destruct (ru_nqp r <? 1)%Z eqn:E; [discriminate|]. intros H.
    destruct (compute_rule lit (ru_type r) (ru_nqp r)) as [[[X W]|]|] eqn:G; try discriminate. injection H as <-.
    cbn [ru_nqp ru_type ru_point ru_weight]. rewrite E, G. reflexivity.
  Qed.

  Variable maxreal : R.

  Lemma init_idem b p m U spans r r' B : init_quadrature lit maxreal b p m U spans r = (Ok, r', Some B) ->
    usable lit r -> (0 <= p)%Z -> (ru_type r <> RReduced \/ (Z.of_nat (length spans) <= 2)%Z) ->
    init_quadrature lit maxreal b p m U spans r' = (Ok, r', Some B).
  Proof.
    intros H Hu Hp Hc. unfold init_quadrature in *.
    destruct (if (ru_nqp r <? 1)%Z then rule_set_size lit (p+1) r else (Ok, r)) as [s r1] eqn:E.
    destruct s; try discriminate.
    assert (K : (1 <= ru_nqp r1)%Z /\ ru_type r1 = ru_type r).
    { destruct (ru_nqp r <? 1)%Z eqn:E1.
      - apply set_size_usable in E; auto. destruct E as (_ & -> & ->). split; auto; lia.
      - injection E as <-. apply Z.ltb_ge in E1. auto. }
    destruct K as [K1 K2].
    destruct (negb b && negb (mult_ok p m U (Z.to_nat (m+1)) 1)) eqn:EM; [discriminate|].
    destruct (negb (rtype_eqb (ru_type r1) RReduced)) eqn:ET.
    - injection H as <- <-. destruct (ru_nqp r1 <? 1)%Z eqn:E1; [lia|]. cbv beta iota. rewrite ?EM, ?ET. reflexivity.
    - assert (T : ru_type r1 = RReduced) by (destruct (ru_type r1); auto; discriminate).
      destruct Hc as [Hc|Hc]; [congruence|].
      destruct (2 <? Z.of_nat (length spans))%Z eqn:E2; [lia|]. cbn [andb] in H. injection H as <- <-.
      destruct (ru_nqp r1 <? 1)%Z eqn:E1; [lia|]. cbv beta iota. rewrite ?EM, ?ET, ?E2. reflexivity.
  Qed.
End Machine.

(** Polynomials under an affine substitution. *)
Fixpoint padd (c d : list R) : list R :=
  match c, d with a :: c', b :: d' => (a + b) :: padd c' d' | [], d => d | c, [] => c end.
Lemma peval_padd c d x : peval (padd c d) x = peval c x + peval d x.
Proof. revert d; induction c as [|a c IH]; intros [|b d]; simpl; try lra. rewrite IH. ring. Qed.
Lemma length_padd c d : length (padd c d) = Nat.max (length c) (length d).
Proof. revert d; induction c as [|a c IH]; intros [|b d]; simpl; auto. Qed.
Fixpoint paffine (c : list R) (a b : R) : list R :=
  match c with
  | [] => []
  | c0 :: c' => let q := paffine c' a b in padd (c0 :: map (Rmult b) q) (map (Rmult a) q)
  end.
Lemma peval_scal a c x : peval (map (Rmult a) c) x = a * peval c x.
Proof. induction c as [|b c IH]; simpl; [lra|]. rewrite IH. ring. Qed.
Lemma peval_affine c a b x : peval (paffine c a b) x = peval c (a + b * x).
Proof.
  induction c as [|c0 c IH]; auto. cbn [paffine]. rewrite peval_padd. cbn [peval]. rewrite !peval_scal, IH. ring.
Qed.
Lemma length_affine c a b : length (paffine c a b) = length c.
Proof. induction c as [|c0 c IH]; auto. cbn [paffine]. rewrite length_padd. cbn [length]. rewrite !map_length, IH. lia. Qed.

Lemma quad_map_points X W g f : quad (map g X) W f = quad X W (fun x => f (g x)).
Proof. revert W; induction X as [|x X IH]; intros [|w W]; simpl; auto. rewrite IH. reflexivity. Qed.
Lemma quad_scal_weights X W a f : quad X (map (Rmult a) W) f = a * quad X W f.
Proof. revert W; induction X as [|x X IH]; intros [|w W]; simpl; try lra. rewrite IH. ring. Qed.
Lemma quad_zero X n f : quad X (zeros n) f = 0.
Proof.
  unfold zeros. generalize (zseq 0 n). intros l. revert X. induction l as [|a l IH]; intros [|x X]; simpl; auto. rewrite IH. ring.
Qed.
Lemma quad_app X W Y V f : length X = length W -> quad (X ++ Y) (W ++ V) f = quad X W f + quad Y V f.
Proof. revert W; induction X as [|x X IH]; intros [|w W] E; simpl in *; try discriminate; try lra. rewrite IH by lia. ring. Qed.
Lemma sumR_app l l' : sumR (l ++ l') = sumR l + sumR l'.
Proof. unfold sumR. induction l; simpl; lra. Qed.
Lemma sumR_zeros n : sumR (zeros n) = 0.
Proof. unfold zeros, sumR. induction (zseq 0 n); simpl; lra. Qed.
Lemma sumR_scal a l : sumR (map (Rmult a) l) = a * sumR l.
Proof. unfold sumR. induction l; simpl; lra. Qed.

Lemma continuity_peval c x : continuity_pt (peval c) x.
Proof.
  induction c as [|a c IH]; [apply continuity_pt_const; intros ? ?; reflexivity|].
  change (continuity_pt (plus_fct (fct_cte a) (mult_fct id (peval c))) x).
  apply continuity_pt_plus; [apply continuity_pt_const; intros ? ?; reflexivity|]. apply continuity_pt_mult; [|exact IH].
  apply derivable_continuous_pt, derivable_pt_id.
Qed.
Lemma continuous_peval c x : continuous (peval c) x.
Proof. apply continuity_pt_filterlim, continuity_peval. Qed.
Lemma ex_RInt_peval c a b : ex_RInt (peval c) a b.
Proof. apply (ex_RInt_continuous (V:=R_CompleteNormedModule)). intros; apply continuous_peval. Qed.

(** Change of variable u = (x+1) J + u0 with u0 + 2 J = u1. *)
Lemma RInt_affine c u0 J : J <> 0 ->
  RInt (fun u => peval c ((u - u0) / J - 1)) u0 (u0 + 2 * J) = J * RInt (peval c) (-1) 1.
Proof.
  intros HJ.
  rewrite (RInt_ext _ (fun u => scal J (scal (/ J) (peval c (/ J * u + (- u0 / J - 1)))))).
  2:{ intros u _. unfold scal; simpl; unfold mult; simpl. rewrite <- Rmult_assoc, Rinv_r, Rmult_1_l by auto. f_equal. field. auto. }
  rewrite (RInt_scal (V:=R_CompleteNormedModule)).
  2:{ apply (ex_RInt_comp_lin (V:=R_CompleteNormedModule) (peval c)). apply ex_RInt_peval. }
  rewrite (RInt_comp_lin (V:=R_CompleteNormedModule) (peval c)) by apply ex_RInt_peval.
  unfold scal; simpl; unfold mult; simpl. f_equal. f_equal; field; auto.
Qed.

Section Element.
  Variables (X W : list R) (d : nat) (eps u0 J : R).
  Hypothesis HJ : 0 < J.
  Hypothesis Hlen : length X = length W.
  Hypothesis HX : List.Forall (fun x => -1 <= x <= 1) X.
  Hypothesis HI : integrates d eps (-1) 1 X W.
  Let P := map (fun x => (x + 1) * J + u0) X.

  Lemma elem_inside : List.Forall (fun u => u0 <= u <= u0 + 2 * J) P.
  Proof.
    unfold P. clear -HX HJ. induction HX as [|x l [H1 H2]]; simpl; constructor; auto. split; nra.
  Qed.
  Lemma elem_local c : (length c <= d)%nat ->
    Rabs (quad P (map (Rmult J) W) (fun u => peval c ((u - u0) / J - 1)) - RInt (fun u => peval c ((u - u0) / J - 1)) u0 (u0 + 2 * J))
    <= J * eps * pnorm c.
  Proof.
    intros Hc. unfold P. rewrite quad_map_points, quad_scal_weights, RInt_affine by lra.
    rewrite (quad_ext X W _ (peval c)) by (intros x; f_equal; field; lra).
    rewrite <- Rmult_minus_distr_l, Rabs_mult, (Rabs_pos_eq J), Rmult_assoc by lra. apply Rmult_le_compat_l; [lra|]. apply HI; auto.
  Qed.
  Lemma elem_exact : eps = 0 -> integrates d 0 u0 (u0 + 2 * J) P (map (Rmult J) W).
  Proof.
    intros E c Hc. set (c' := paffine c (J + u0) J).
    pose proof (elem_local c' ltac:(unfold c'; rewrite length_affine; auto)) as H.
    assert (Q : forall u, peval c' ((u - u0) / J - 1) = peval c u).
    { intros u. unfold c'. rewrite peval_affine. f_equal. field; lra. }
    rewrite (quad_ext _ _ _ (peval c) Q) in H. rewrite (RInt_ext _ (peval c)) in H by (intros; apply Q).
    rewrite E, Rmult_0_r, Rmult_0_l in H. rewrite Rmult_0_l. exact H.
  Qed.
End Element.

(** The element lengths add up to the domain length. *)
Lemma telescope (U : Z -> R) a n : (0 <= n)%Z -> rsum (fun k => U (k+1)%Z - U k) (zseq a n) = U (a + n)%Z - U a.
Proof.
  intros Hn. rewrite <- (Z2Nat.id n) by auto. generalize (Z.to_nat n) as q; clear n Hn. intros q; revert a.
  induction q as [|q IH]; intros a.
  - rewrite zseq_nil by lia. unfold rsum; simpl. rewrite Z.add_0_r. ring.
  - rewrite zseq_cons by lia. rewrite rsum_cons. replace (Z.of_nat (S q) - 1)%Z with (Z.of_nat q) by lia. rewrite IH.
    replace (a + 1 + Z.of_nat q)%Z with (a + Z.of_nat (S q))%Z by lia. ring.
Qed.
Lemma sorted_NoDup l : StronglySorted Z.lt l -> NoDup l.
Proof.
  induction 1 as [|a l H IH HF]; constructor; auto. intros Hin. rewrite List.Forall_forall in HF. specialize (HF a Hin). lia.
Qed.
Lemma elements_length p m (U : Z -> R) spans : (2*p+1 <= m)%Z -> (0 <= p)%Z -> nondecreasing (O:=Rord) m U ->
  is_element_list (O:=Rord) p m U spans -> rsum (fun k => U (k+1)%Z - U k) spans = U (m-p)%Z - U p.
Proof.
  intros Hm Hp Hnd [HI HS].
  rewrite (rsum_perm _ _ _ (filter (fun k => Rltb (U k) (U (k+1)%Z)) (zseq p (m-2*p)))).
  2:{ apply NoDup_Permutation; [apply sorted_NoDup; auto|apply NoDup_filter, NoDup_zseq|].
      intros k. rewrite HI, filter_In, in_zseq. unfold is_element, klt; simpl. split; intros [A B]; split; auto; lia. }
  rewrite rsum_filter. rewrite (rsum_ext _ _ (fun k => U (k+1)%Z - U k)).
  - rewrite telescope by lia. f_equal. f_equal. lia.
  - intros k Hk. apply in_zseq in Hk. destruct (Rltb (U k) (U (k+1)%Z)) eqn:E; auto.
    apply Rltb_false in E. pose proof (Hnd k (k+1)%Z ltac:(lia) ltac:(lia) ltac:(lia)) as Q. apply kle_R in Q. change (kT Rord) with R in *. lra.
Qed.

Lemma map_nth_zseq (l : list Z) : map (fun e => nth (Z.to_nat e) l 0%Z) (zseq 0 (Z.of_nat (length l))) = l.
Proof.
  apply (nth_ext _ _ (nth (Z.to_nat 0) l 0%Z) 0%Z); [rewrite map_length, length_zseq; lia|]. intros i Hi.
  rewrite map_length, length_zseq in Hi. rewrite (map_nth (fun e => nth (Z.to_nat e) l 0%Z)). rewrite nth_zseq by lia. f_equal. lia.
Qed.
