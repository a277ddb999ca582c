(** Tables of one direction. *)
From Coq Require Import ZArith List Bool Lia Reals Lra Permutation Sorted.
From Coq Require Import ZifyBool ZifyNat.
From Verif Require Import Prelude RealOrd AxisModel AxisSpec Box GridSpec GridProofs ElemModel ElemSpec RuleModel RuleSpec RuleProofs RuleProofs2 RuleProps
  MapModel TabModel TabSpec TabRule.
From Verif Require Import Box.
Import ListNotations.
Open Scope Z_scope.

Lemma fill_before row W : forall X q N k, k < q -> fill_values row W X q N k = N k.
Proof.
  induction W as [|w W IH]; intros X q N k Hk; cbn [fill_values]; auto. destruct X as [|u X]; auto. destruct (Rlt_dec 0 w); auto.
  rewrite IH by lia. replace (k =? q) with false by lia. reflexivity.
Qed.
Lemma fill_at row W : forall X n q N k, (forall j, 0 <= j < n -> (0 < at0 W j)%R) -> n <= Z.of_nat (length W) -> n <= Z.of_nat (length X) ->
  q <= k < q + n -> fill_values row W X q N k = row (at0 X (k - q)).
Proof.
  induction W as [|w W IH]; intros X n q N k HW HL HX Hk; [cbn [length] in HL; lia|].
  destruct X as [|u X]; [cbn [length] in HX; lia|]. cbn [fill_values].
  assert (P : (0 < w)%R) by (specialize (HW 0 ltac:(lia)); exact HW). destruct (Rlt_dec 0 w); [|lra].
  destruct (Z.eq_dec k q) as [->|D].
  - rewrite fill_before by lia. rewrite Z.eqb_refl. replace (q - q) with 0 by lia. reflexivity.
  - rewrite (IH X (n-1)); [|intros j Hj; specialize (HW (j+1) ltac:(lia)); unfold at0 in *; replace (Z.to_nat (j+1)) with (S (Z.to_nat j)) in HW by lia; exact HW|cbn [length] in HL; lia|cbn [length] in HX; lia|lia].
    unfold at0. replace (Z.to_nat (k - q)) with (S (Z.to_nat (k - (q+1)))) by lia. reflexivity.
Qed.

Lemma trim_leading W n : leading W n -> quad_trim (at0 W) (length W) = n.
Proof.
  intros (Hn & Hp & Hz).
  assert (K : forall m, (m <= length W)%nat -> n <= Z.of_nat m -> quad_trim (at0 W) m = n).
  { induction m as [|m IH]; intros Hm Hnm; cbn [quad_trim]; [lia|]. destruct (Rle_dec (at0 W (Z.of_nat m)) 0).
    - destruct (Z.eq_dec n (Z.of_nat (S m))) as [E|E]; [|apply IH; lia]. specialize (Hp (Z.of_nat m) ltac:(lia)). lra.
    - destruct (Z.eq_dec n (Z.of_nat (S m))) as [E|E]; [lia|]. specialize (Hz (Z.of_nat m) ltac:(lia)). lra. }
  apply K; lia.
Qed.

Lemma at0_app1 A B q : 0 <= q < Z.of_nat (length A) -> at0 (A ++ B) q = at0 A q.
Proof. intros H. unfold at0. apply app_nth1. lia. Qed.
Lemma at0_in A q : 0 <= q < Z.of_nat (length A) -> In (at0 A q) A.
Proof. intros H. unfold at0. apply nth_In. lia. Qed.
Lemma at0_map f A q : 0 <= q < Z.of_nat (length A) -> at0 (map f A) q = f (at0 A q).
Proof. intros H. unfold at0. rewrite (nth_indep _ 0%R (f 0%R)) by (rewrite map_length; lia). apply map_nth. Qed.
Lemma at0_firstn A n q : 0 <= q < n -> at0 (firstn (Z.to_nat n) A) q = at0 A q.
Proof.
  intros H. unfold at0. revert n q H. induction A as [|a A IH]; intros n q H.
  - rewrite firstn_nil. reflexivity.
  - replace (Z.to_nat n) with (S (Z.to_nat (n-1))) by lia. cbn [firstn]. destruct (Z.eq_dec q 0) as [->|D]; [reflexivity|].
    replace (Z.to_nat q) with (S (Z.to_nat (q-1))) by lia. cbn [nth]. apply IH. lia.
Qed.
Lemma zeros_at n q : at0 (zeros n) q = 0%R.
Proof.
  unfold at0, zeros. destruct (Nat.lt_ge_cases (Z.to_nat q) (length (map (fun _ : Z => 0%R) (zseq 0 n)))) as [L|L]; [|apply nth_overflow; auto].
  pose proof (nth_In _ 0%R L) as I. apply in_map_iff in I. destruct I as (z & E & _). auto.
Qed.
Lemma length_zeros n : length (zeros n) = Z.to_nat n.
Proof. unfold zeros. rewrite map_length, length_zseq. reflexivity. Qed.

Lemma leading_all W : List.Forall (fun w => (0 < w)%R) W -> leading W (Z.of_nat (length W)).
Proof.
  intros H. rewrite Forall_forall in H. split; [lia|]. split; [|intros; lia]. intros q Hq. apply H, at0_in; auto.
Qed.
Lemma leading_zeros W k : List.Forall (fun w => (0 < w)%R) W -> leading (W ++ zeros k) (Z.of_nat (length W)).
Proof.
  intros H. rewrite Forall_forall in H. rewrite <- ?app_length. split; [rewrite app_length; lia|]. split.
  - intros q Hq. rewrite at0_app1 by lia. apply H, at0_in; auto.
  - intros q Hq. unfold at0. rewrite app_nth2 by lia. pose proof (zeros_at k (q - Z.of_nat (length W))) as E. unfold at0 in E.
    replace (Z.to_nat q - length W)%nat with (Z.to_nat (q - Z.of_nat (length W))) by lia. rewrite E. lra.
Qed.

(** What the tables of a direction with these knots and elements contain. *)
Definition table_ok (CB : Z -> R -> Z -> Z -> (Z -> R) -> Z -> Z -> R) (p m : Z) (U : Z -> R) (spans : list Z) (T : btable) : Prop :=
  bq_nen (bt_q T) = p + 1 /\
  (forall e, 0 <= e < Z.of_nat (length spans) ->
    let k := nth (Z.to_nat e) spans 0 in
    1 <= quad_size T e /\ bq_detJac (bt_q T) e = ((U (k+1)%Z - U k) / 2)%R /\
    forall q, 0 <= q < quad_size T e -> (0 < weights_at T e q)%R /\
      forall o a, bt_value T e q o a = CB k (points_at T e q) p (Z.min p 4) U o a) /\
  (forall s, bt_bnd_point T s = (if s =? 0 then U p else U (m-p))) /\
  (forall s o a, bt_bnd_value T s o a = (if s =? 0 then CB p (U p) p (Z.min p 4) U o a else CB (m-p-1) (U (m-p)) p (Z.min p 4) U o a)).

(** The first points of an element: the rule's points in the element. *)
Definition points_ok (p : Z) (U : Z -> R) (spans : list Z) (T : btable) : Prop :=
  forall e, 0 <= e < Z.of_nat (length spans) ->
    let k := nth (Z.to_nat e) spans 0 in
    p < quad_size T e /\
    exists X, Z.of_nat (length X) = quad_size T e /\ NoDup X /\ List.Forall (fun x => -1 <= x <= 1)%R X /\
      forall q, 0 <= q < quad_size T e -> points_at T e q = ((at0 X q + 1) * ((U (k+1)%Z - U k) / 2) + U k)%R.

Section Tables.
  Variable lit : Z -> R.
  Hypothesis Hlit : rounds lit.
  Variable maxreal : R.

  Lemma legendre_facts q X W : gauss_legendre lit Ropp q = Some (X, W) ->
    Z.of_nat (length X) = q /\ Z.of_nat (length W) = q /\ 1 <= q /\ List.Forall (fun x => -1 <= x <= 1)%R X /\ List.Forall (fun w => 0 < w)%R W /\ NoDup X.
  Proof.
    intros E. assert (Hq : 1 <= q <= 10).
    { destruct (Z_le_dec 1 q) as [A|A]; [destruct (Z_le_dec q 10) as [B|B]; [lia|]|]; rewrite (proj1 (C36_other_sizes_are_refused lit q)) in E by lia; discriminate. }
    destruct (C36_gauss_legendre_tables lit Hlit q Hq) as (X' & W' & E' & L1 & L2 & F1 & F2 & _). rewrite E in E'. injection E' as <- <-.
    split; [lia|]. split; [lia|]. split; [lia|]. split; [auto|]. split; auto. apply (legendre_nodup lit q X W); auto.
  Qed.
  Lemma lobatto_facts q X W : gauss_lobatto lit Ropp q = Some (X, W) ->
    Z.of_nat (length X) = q /\ Z.of_nat (length W) = q /\ 1 <= q /\ List.Forall (fun x => -1 <= x <= 1)%R X /\ List.Forall (fun w => 0 < w)%R W /\ NoDup X.
  Proof.
    intros E. assert (Hq : 2 <= q <= 10).
    { destruct (Z_le_dec 2 q) as [A|A]; [destruct (Z_le_dec q 10) as [B|B]; [lia|]|]; rewrite (proj2 (C36_other_sizes_are_refused lit q)) in E by lia; discriminate. }
    destruct (C36_gauss_lobatto_tables lit Hlit q Hq) as (X' & W' & E' & L1 & L2 & F1 & F2 & _). rewrite E in E'. injection E' as <- <-.
    split; [lia|]. split; [lia|]. split; [lia|]. split; [auto|]. split; auto. apply (lobatto_nodup lit q X W); auto.
  Qed.

  (** The weights and points of an element: those that count come first and are points of the element. *)
  Lemma init_facts bspline p m U spans r r' Q : 0 <= p -> good_rule lit r ->
    init_quadrature lit maxreal bspline p m U spans r = (Ok, r', Some Q) ->
    bq_nen Q = p + 1 /\ (forall e, bq_detJac Q e = elem_detJac U (nth (Z.to_nat e) spans 0)) /\
    forall e, 0 <= e < Z.of_nat (length spans) ->
      let k := nth (Z.to_nat e) spans 0 in
      exists n X, 1 <= n /\ leading (bq_weight Q e) n /\ Z.of_nat (length (bq_weight Q e)) = bq_nqp Q /\ n <= Z.of_nat (length (bq_point Q e)) /\
        Z.of_nat (length X) = n /\
        (forall q, 0 <= q < n -> at0 (bq_point Q e) q = ((at0 X q + 1) * ((U (k+1)%Z - U k) / 2) + U k)%R) /\
        (enough_points lit p r -> p < n /\ NoDup X /\ List.Forall (fun x => -1 <= x <= 1)%R X).
  Proof.
    intros Hp (Hu & Huser) HQ.
    assert (B : bq_nen Q = p + 1 /\ (forall e, bq_detJac Q e = elem_detJac U (nth (Z.to_nat e) spans 0))).
    { unfold init_quadrature in HQ. destruct (if ru_nqp r <? 1 then rule_set_size lit (p+1) r else (Ok, r)) as [s r1]. destruct s; try discriminate.
      destruct (negb bspline && negb (mult_ok p m U (Z.to_nat (m+1)) 1)); [discriminate|]. destruct (negb (rtype_eqb (ru_type r1) RReduced)).
      - injection HQ as _ <-. split; reflexivity.
      - destruct (if (2 <? Z.of_nat (length spans)) && (1 <? ru_nqp r1) then rule_set_size lit (ru_nqp r1 - 1) r1 else (Ok, r1)) as [s2 r2].
        destruct s2; try discriminate. injection HQ as _ <-. split; reflexivity. }
    split; [apply B|]. split; [apply B|]. clear B. intros e He k.
    destruct (ru_type r) eqn:ET.
    4:{ destruct (Huser eq_refl) as (W & n & EW & Hn & HL). destruct Hu as [(_ & _ & E)|(Hq & X & W' & EX & EW' & LX & LW & _)]; [congruence|].
        rewrite EW in EW'. injection EW' as <-. unfold init_quadrature in HQ. replace (ru_nqp r <? 1) with false in HQ by lia.
        destruct (negb bspline && negb (mult_ok p m U (Z.to_nat (m+1)) 1)); [discriminate|]. rewrite ET in HQ. cbn [rtype_eqb negb] in HQ. injection HQ as _ <-.
        cbn [bq_weight bq_point bq_nqp]. rewrite EX, EW. cbn [pts]. destruct HL as (L1 & L2 & L3).
        exists n, (firstn (Z.to_nat n) X). split; [lia|]. split; [split; auto|]. split; [lia|]. split; [unfold elem_points; rewrite app_length, map_length; lia|].
        split; [rewrite firstn_length; lia|]. split.
        - intros q Hq'. unfold elem_points. rewrite at0_app1 by (rewrite map_length; lia). rewrite at0_map by lia. rewrite at0_firstn by lia. reflexivity.
        - intros (_ & Hen). rewrite ET in Hen. destruct Hen as (X' & W' & n' & E1 & E2 & Hpn & L' & ND & HI). rewrite EX in E1. injection E1 as <-. rewrite EW in E2. injection E2 as <-.
          assert (n' = n). { rewrite <- (trim_leading W n), <- (trim_leading W n'); auto. split; auto. } subst n'.
          split; [lia|]. split; [auto|]. apply Forall_forall. intros x Hx. destruct (In_nth _ _ 0%R Hx) as (i & Hi & Ei). rewrite firstn_length in Hi.
          specialize (HI (Z.of_nat i) ltac:(lia)). rewrite <- (at0_firstn X n) in HI by lia. unfold at0 in HI. rewrite Nat2Z.id in HI. rewrite Ei in HI. exact HI. }
    3:{ destruct (C37_reduced_rule lit maxreal bspline p m U spans r r' Q Hu Hp ET HQ) as (E1 & Hq & F). specialize (F e ltac:(lia)). cbv zeta in F.
        set (qe := if (e =? 0) || (e =? bq_nel Q - 1) || (bq_nqp Q =? 1) then bq_nqp Q else bq_nqp Q - 1) in *.
        destruct F as (X & W & EG & EW & LP & FP & _). destruct (legendre_facts qe X W EG) as (LX & LW & Hqe & FX & FW & ND). fold k in FP.
        exists qe, X. split; [auto|]. rewrite EW. split; [rewrite <- LW at 2; apply leading_zeros; auto|].
        assert (Hqq : qe <= bq_nqp Q) by (unfold qe; destruct (_ || _); lia).
        split; [rewrite app_length, length_zeros; lia|]. split; [lia|]. split; [auto|]. split.
        - intros q Hq'. rewrite <- (at0_firstn _ qe) by lia. rewrite FP. rewrite at0_map by lia. reflexivity.
        - intros (_ & Hen). rewrite ET in Hen. split; [|split; auto].
          assert (EQ : bq_nqp Q = ru_nqp r).
          { unfold init_quadrature in HQ. replace (ru_nqp r <? 1) with false in HQ by lia. destruct (negb bspline && negb (mult_ok p m U (Z.to_nat (m+1)) 1)); [discriminate|].
            rewrite ET in HQ. cbn [rtype_eqb negb] in HQ.
            destruct (if (2 <? Z.of_nat (length spans)) && (1 <? ru_nqp r) then rule_set_size lit (ru_nqp r - 1) r else (Ok, r)) as [s2 r2].
            destruct s2; try discriminate. injection HQ as _ <-. reflexivity. }
          unfold qe. destruct (_ || _); lia. }
    1-2: unfold init_quadrature in HQ; destruct (if ru_nqp r <? 1 then rule_set_size lit (p+1) r else (Ok, r)) as [s r1] eqn:ES; destruct s; try discriminate;
      (assert (K : usable lit r1 /\ 1 <= ru_nqp r1 /\ ru_type r1 = ru_type r /\ (ru_nqp r = 0 \/ p < ru_nqp r -> p < ru_nqp r1)) by
        (destruct (ru_nqp r <? 1) eqn:E0; [apply set_size_usable in ES; auto; destruct ES as (A & B & C); rewrite B; repeat (split; [auto; lia|]); lia|injection ES as <-; repeat (split; [auto; lia|]); lia]));
      destruct K as (Hu1 & Hq1 & ET1 & Hen1); rewrite ET in ET1;
      (destruct (negb bspline && negb (mult_ok p m U (Z.to_nat (m+1)) 1)); [discriminate|]); rewrite ET1 in HQ; cbn [rtype_eqb negb] in HQ; injection HQ as _ <-;
      (destruct Hu1 as [(E0 & _)|(_ & X & W & EX & EW & LX & LW & EG)]; [lia|]); rewrite ET1 in EG; cbn [bq_weight bq_point bq_nqp]; rewrite EX, EW; cbn [pts];
      (pose proof EG as FG; (apply legendre_facts in FG || apply lobatto_facts in FG); destruct FG as (F1 & F2 & F3 & F4 & F5 & F6));
      exists (ru_nqp r1), X; (split; [auto|]); (split; [rewrite <- F2; apply leading_all; auto|]); (split; [lia|]);
      (split; [unfold elem_points; rewrite app_length, map_length; lia|]); (split; [auto|]);
      (split; [intros q Hq'; unfold elem_points; rewrite at0_app1 by (rewrite map_length; lia); rewrite at0_map by lia; reflexivity|]);
      (intros (_ & Hen); rewrite ET in Hen; split; [apply Hen1; auto|split; auto]).
  Qed.

  Variable CB : Z -> R -> Z -> Z -> (Z -> R) -> Z -> Z -> R.
  Lemma basis_facts bspline p m U spans N0 r r' T : 0 <= p -> good_rule lit r ->
    basis_init lit maxreal CB bspline p m U spans N0 r = (Ok, r', Some T) ->
    table_ok CB p m U spans T /\ (enough_points lit p r -> points_ok p U spans T).
  Proof.
    intros Hp Hg H. unfold basis_init in H.
    destruct (init_quadrature lit maxreal bspline p m U spans r) as [[s r1] [Q|]] eqn:EQ; [|discriminate]. 
    assert (s = Ok /\ r1 = r') as [-> ->] by (split; congruence). destruct (init_facts bspline p m U spans r r' Q Hp Hg EQ) as (I1 & I2 & I3).
    assert (ET : T = mk_btable Q
          (fun e => fill_values (fun u => CB (nth (Z.to_nat e) spans 0) u p (Z.min p 4) U) (bq_weight Q e) (bq_point Q e) 0 (N0 e))
          (fun s => if s =? 0 then U p else U (m - p - 1 + 1))
          (fun s => if s =? 0 then CB p (U p) p (Z.min p 4) U else CB (m - p - 1) (U (m - p - 1 + 1)) p (Z.min p 4) U)) by congruence.
    assert (S : forall e, 0 <= e < Z.of_nat (length spans) -> forall n, leading (bq_weight Q e) n -> Z.of_nat (length (bq_weight Q e)) = bq_nqp Q -> quad_size T e = n).
    { intros e He n HL EL. unfold quad_size. subst T. cbn [bt_q]. unfold weights_at. cbn [bt_q]. rewrite <- EL, Nat2Z.id. apply (trim_leading (bq_weight Q e)); auto. }
    assert (TO : table_ok CB p m U spans T).
    { split; [subst T; auto|]. split; [|split].
      - intros e He k. destruct (I3 e He) as (n & X & Hn & HL & EL & LP & LX & HX & _). rewrite (S e He n HL EL). split; [auto|].
        split; [subst T; cbn [bt_q]; rewrite I2; reflexivity|]. intros q Hq. pose proof HL as (L1 & L2 & L3). split; [subst T; exact (L2 q Hq)|].
        intros o a. subst T. cbn [bt_value]. rewrite (fill_at _ _ _ n) by (auto; lia). replace (q - 0) with q by lia. reflexivity.
      - intros s. subst T. cbn [bt_bnd_point]. replace (m - p - 1 + 1) with (m - p) by lia. reflexivity.
      - intros s o a. subst T. cbn [bt_bnd_value]. replace (m - p - 1 + 1) with (m - p) by lia. destruct (s =? 0); reflexivity. }
    split; [exact TO|].
    intros Hen e He k. destruct (I3 e He) as (n & X & Hn & HL & EL & LP & LX & HX & HE). rewrite (S e He n HL EL). destruct (HE Hen) as (E1 & E2 & E3).
    split; auto. exists X. split; auto. split; auto. split; auto. intros q Hq. subst T. exact (HX q Hq).
  Qed.
  Lemma unit_facts bspline N0 r' T :
    basis_init lit maxreal CB bspline 0 1 unit_knots [0] N0 (mk_rule RLegendre 0 None None) = (Ok, r', Some T) -> quad_size T 0 = 1.
  Proof.
    intros H. destruct (basis_facts bspline 0 1 unit_knots [0] N0 (mk_rule RLegendre 0 None None) r' T ltac:(lia)) as ((_ & TO & _) & _); auto.
    { split; [left; auto|discriminate]. }
    unfold basis_init in H. destruct (init_quadrature lit maxreal bspline 0 1 unit_knots [0] (mk_rule RLegendre 0 None None)) as [[s r1] [Q|]] eqn:EQ; [|discriminate].
    assert (EN : bq_nqp Q = 1).
    { unfold init_quadrature in EQ. cbn [ru_nqp] in EQ. change (0 <? 1) with true in EQ. cbv iota in EQ.
      destruct (rule_set_size lit (0+1) (mk_rule RLegendre 0 None None)) as [s1 r2] eqn:ES. destruct s1; try discriminate.
      apply set_size_usable in ES; [|left; auto]. destruct ES as (_ & E1 & E2). destruct (negb bspline && negb (mult_ok 0 1 unit_knots (Z.to_nat (1+1)) 1)); [discriminate|].
      cbn [ru_type] in E2. rewrite E2 in EQ. cbn [rtype_eqb negb] in EQ. injection EQ as _ _ <-. cbn [bq_nqp]. lia. }
    specialize (TO 0 ltac:(cbn; lia)). cbv zeta in TO. destruct TO as (T1 & _).
    assert (T2 : quad_size T 0 <= 1); [|lia]. unfold quad_size. injection H as _ _ <-. cbn [bt_q]. rewrite EN. change (Z.to_nat 1) with 1%nat. cbn [quad_trim].
    destruct (Rle_dec _ 0); cbn; lia.
  Qed.
End Tables.
