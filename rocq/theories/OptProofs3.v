From Coq Require Import ZArith List Bool Reals Lia Lra FunctionalExtensionality.
From Verif Require Import Prelude RealOrd AxisModel AxisInitModel AxisInitProofs AxisProofs AxisProofs2 RuleModel OptModel OptSpec OptProofs OptProofs2.
Import ListNotations.
Open Scope Z_scope.

Section Rules.
  Variable lit : Z -> R.

  Definition size_F (n : Z) (r : rule) : status * rule := if ru_nqp r =? n then (Ok, r) else rule_set_size lit n r.
  Definition wanted (v p : Z) (r : rule) : Z := or_else v (or_else (ru_nqp r) (p + 1)).
  Definition rule_F (flg1 flg2 : bool) (t : rule_type) (v p : Z) (r : rule) : status * rule :=
    bind (when flg1 (rule_set_type lit t) (if flg1 && flg2 then rule_reset r else r)) (when flg2 (size_F (wanted v p r))).
  Definition quad_F (flg : bool) (q : Z) (r : rule) : status * rule := when (flg && (0 <? q)) (size_F q) r.

  Lemma rtype_eqb_eq : forall a b, rtype_eqb a b = true <-> a = b.
  Proof. intros [] []; cbn; split; congruence. Qed.

  Lemma put_rule_false : forall i x g, og_setup g = false -> put_rule i x g = let '(s, r) := x in (s, with_rule i r false g).
  Proof. intros i [s r] g Hs. unfold put_rule. rewrite Hs. destruct s; reflexivity. Qed.

  Lemma with_rule_own : forall i g, og_setup g = false -> with_rule i (og_rule g i) false g = g.
  Proof. intros i g Hs. unfold with_rule. rewrite upd_id, <- Hs. destruct g; reflexivity. Qed.

  Lemma set_rule_type_F : forall i t g, og_setup g = false ->
    set_rule_type lit i t g = let '(s, r) := rule_set_type lit t (og_rule g i) in (s, with_rule i r false g).
  Proof.
    intros i t g Hs. unfold set_rule_type. rewrite put_rule_false by exact Hs. unfold rule_set_type.
    destruct (rtype_eqb (ru_type (og_rule g i)) t); [rewrite with_rule_own by exact Hs|]; reflexivity.
  Qed.
  Lemma set_rule_size_F : forall i n g, og_setup g = false ->
    set_rule_size lit i n g = let '(s, r) := size_F n (og_rule g i) in (s, with_rule i r false g).
  Proof.
    intros i n g Hs. unfold set_rule_size, size_F. rewrite put_rule_false by exact Hs.
    destruct (ru_nqp (og_rule g i) =? n); [rewrite with_rule_own by exact Hs|]; reflexivity.
  Qed.
  Lemma set_quadrature_F : forall i q g, og_setup g = false -> 0 < q ->
    set_quadrature lit i q g = let '(s, r) := size_F q (og_rule g i) in (s, with_rule i r false g).
  Proof.
    intros i q g Hs Hq. unfold set_quadrature, size_F. rewrite put_rule_false by exact Hs.
    replace (q =? PETSC_DECIDE) with false by (symmetry; apply Z.eqb_neq; unfold PETSC_DECIDE; lia). cbn [andb].
    replace (q <=? 0) with false by (symmetry; apply Z.leb_gt; lia).
    destruct (ru_nqp (og_rule g i) =? q); [rewrite with_rule_own by exact Hs|]; reflexivity.
  Qed.

  Definition rule_step (flg1 flg2 : bool) (rtype : Z -> rule_type) (rsize : Z -> Z) (i : Z) (g : oiga) : status * oiga :=
    let nqp := if 0 <? rsize i then rsize i else if 0 <? ru_nqp (og_rule g i) then ru_nqp (og_rule g i) else ax_p (og_axis g i) + 1 in
    let g := if flg1 && flg2 then with_rule i (rule_reset (og_rule g i)) (og_setup g) g else g in
    bind (when flg1 (set_rule_type lit i (rtype i)) g) (fun g => when flg2 (set_rule_size lit i nqp) g).

  Lemma upd_upd : forall A (f : Z -> A) i a b, upd (upd f i a) i b = upd f i b.
  Proof. intros A f i a b. apply functional_extensionality. intros x. unfold upd. destruct (x =? i); reflexivity. Qed.

  Lemma rule_cw : forall flg1 flg2 rtype rsize g l, og_setup g = false ->
    cw (fun ru => with_rules ru g) (rule_step flg1 flg2 rtype rsize)
       (fun i r => rule_F flg1 flg2 (rtype i) (rsize i) (ax_p (og_axis g i)) r) l.
  Proof.
    intros flg1 flg2 rtype rsize g l Hs i h _. unfold rule_step, rule_F.
    change (og_rule (with_rules h g) i) with (h i). change (og_axis (with_rules h g) i) with (og_axis g i).
    change (og_setup (with_rules h g)) with (og_setup g).
    change (if 0 <? rsize i then rsize i else if 0 <? ru_nqp (h i) then ru_nqp (h i) else ax_p (og_axis g i) + 1)
      with (wanted (rsize i) (ax_p (og_axis g i)) (h i)).
    set (n := wanted (rsize i) (ax_p (og_axis g i)) (h i)).
    assert (E0 : (if flg1 && flg2 then with_rule i (rule_reset (h i)) (og_setup g) (with_rules h g) else with_rules h g)
                 = with_rules (upd h i (if flg1 && flg2 then rule_reset (h i) else h i)) g).
    { destruct (flg1 && flg2); [reflexivity|rewrite upd_id; reflexivity]. }
    rewrite E0. set (r0 := if flg1 && flg2 then rule_reset (h i) else h i).
    assert (E1 : when flg1 (set_rule_type lit i (rtype i)) (with_rules (upd h i r0) g)
                 = let '(s, r) := when flg1 (rule_set_type lit (rtype i)) r0 in (s, with_rules (upd h i r) g)).
    { unfold when. destruct flg1; [|reflexivity]. rewrite set_rule_type_F by exact Hs.
      change (og_rule (with_rules (upd h i r0) g) i) with (upd h i r0 i). rewrite upd_same.
      destruct (rule_set_type lit (rtype i) r0) as [s r]. unfold with_rule, with_rules. cbn. rewrite upd_upd, Hs. reflexivity. }
    rewrite E1. destruct (when flg1 (rule_set_type lit (rtype i)) r0) as [s r]. destruct s; cbn [bind]; try reflexivity.
    unfold when. destruct flg2; [|reflexivity]. rewrite set_rule_size_F by exact Hs.
    change (og_rule (with_rules (upd h i r) g) i) with (upd h i r i). rewrite upd_same.
    destruct (size_F n r) as [s r']. unfold with_rule, with_rules. cbn. rewrite upd_upd, Hs. reflexivity.
  Qed.

  Lemma quad_cw : forall (q : Z -> Z) g l, og_setup g = false ->
    cw (fun ru => with_rules ru g) (fun i => when (0 <? q i) (set_quadrature lit i (q i))) (fun i => quad_F true (q i)) l.
  Proof.
    intros q g l Hs i h _. unfold quad_F, when. cbn [andb]. destruct (Z.ltb_spec 0 (q i)); [|rewrite upd_id; reflexivity].
    rewrite set_quadrature_F by assumption. change (og_rule (with_rules h g) i) with (h i).
    destruct (size_F (q i) (h i)) as [s r]. unfold with_rule, with_rules. cbn. rewrite Hs. reflexivity.
  Qed.

  (** The sizes that are asked for. *)
  Definition own_size (r : rule) (p : Z) : Z := or_else (ru_nqp r) (p + 1).
  Definition asked_size (o : opts) (i : Z) (r : rule) (p : Z) : Z := per_direction (own_size r p) (o_rule_size o) i.
  Definition asked_type (o : opts) (i : Z) (r : rule) : rule_type := per_direction (ru_type r) (o_rule_type o) i.
  Definition asked_quadrature (o : opts) (i : Z) (r0 : rule) (p0 : Z) : Z :=
    pick (or_else (asked_size o 0 r0 p0) (p0 + 1)) (o_quadrature o) i.

  Lemma default_sizes_own : forall g rsize i, dim_or_3 g <= 3 -> 0 <= i < dim_or_3 g ->
    rsize i = (if 0 <? ru_nqp (og_rule g i) then ru_nqp (og_rule g i) else PETSC_DECIDE) ->
    default_sizes g rsize i = own_size (og_rule g i) (ax_p (og_axis g i)).
  Proof.
    intros g rsize i H3 Hi E. unfold default_sizes, own_size, or_else.
    replace (i <? dim_or_3 g) with true by (symmetry; apply Z.ltb_lt; lia).
    replace (i <? 3) with true by (symmetry; apply Z.ltb_lt; lia). cbn [andb]. rewrite E.
    destruct (Z.ltb_spec 0 (ru_nqp (og_rule g i))).
    - replace (ru_nqp (og_rule g i) <? 1) with false by (symmetry; apply Z.ltb_ge; lia). reflexivity.
    - reflexivity.
  Qed.

  Lemma rule_sizes_asked : forall o g rsize sizes flg i, dim_or_3 g <= 3 -> 0 <= i < dim_or_3 g ->
    rsize i = (if 0 <? ru_nqp (og_rule g i) then ru_nqp (og_rule g i) else PETSC_DECIDE) ->
    rule_sizes o rsize g = (sizes, flg) ->
    sizes i = asked_size o i (og_rule g i) (ax_p (og_axis g i)) /\ flg = given (o_rule_size o).
  Proof.
    intros o g rsize sizes flg i H3 Hi E H. unfold rule_sizes in H.
    destruct (read_array (o_rule_size o) (dim_or_3 g) (default_sizes g rsize)) as [[x n] f] eqn:ER. injection H as <- <-.
    split; [|apply (read_array_n _ _ _ _ _ _ _ ER)]. rewrite (read_spread _ _ _ _ _ _ _ _ ER Hi H3).
    unfold asked_size. rewrite default_sizes_own by assumption. reflexivity.
  Qed.

  (** Both loops in terms of what is asked for. *)
  Lemma opt_rules_form : forall o rtype rsize g, dim_or_3 g <= 3 -> og_setup g = false ->
    (forall i, 0 <= i < dim_or_3 g -> rtype i = ru_type (og_rule g i)) ->
    (forall i, 0 <= i < dim_or_3 g -> rsize i = (if 0 <? ru_nqp (og_rule g i) then ru_nqp (og_rule g i) else PETSC_DECIDE)) ->
    exists f, opt_rules lit o rtype rsize g = when (given (o_rule_type o) || given (o_rule_size o)) (for_each (zseq 0 (dim_or_3 g)) f) g /\
      cw (fun ru => with_rules ru g) f
         (fun i r => rule_F (given (o_rule_type o)) (given (o_rule_size o)) (asked_type o i (og_rule g i))
                       (asked_size o i (og_rule g i) (ax_p (og_axis g i))) (ax_p (og_axis g i)) r) (zseq 0 (dim_or_3 g)).
  Proof.
    intros o rtype rsize g H3 Hs Ht Hz. unfold opt_rules. set (dim := dim_or_3 g) in *.
    destruct (read_array (o_rule_type o) dim rtype) as [[rt n1] flg1] eqn:ER.
    destruct (rule_sizes o rsize g) as [sz flg2] eqn:ES.
    destruct (read_array_n _ _ _ _ _ _ _ ER) as (Hf1 & _).
    assert (Hd : 1 <= dim) by apply dim_or_3_pos.
    assert (Hf2 : flg2 = given (o_rule_size o)) by (apply (rule_sizes_asked o g rsize sz flg2 0 H3 ltac:(unfold dim in *; lia) (Hz 0 ltac:(lia)) ES)).
    exists (rule_step flg1 flg2 (spread (flg1 && (n1 =? 1)) dim rt) sz). split.
    - rewrite Z.min_l by lia. rewrite <- Hf1, <- Hf2. reflexivity.
    - intros i h Hi. rewrite (rule_cw flg1 flg2 _ _ g (zseq 0 dim) Hs i h Hi). apply in_zseq in Hi. assert (Hi' : 0 <= i < dim) by lia.
      rewrite (read_spread _ _ _ _ _ _ _ _ ER Hi' H3), Ht by exact Hi'.
      destruct (rule_sizes_asked o g rsize sz flg2 i H3 Hi' (Hz i Hi') ES) as (-> & ->). rewrite Hf1. reflexivity.
  Qed.

  Lemma opt_quadrature_form : forall o sizes g v0, dim_or_3 g <= 3 -> og_setup g = false -> sizes 0 = v0 ->
    exists f, opt_quadrature lit o sizes g = when (given (o_quadrature o)) (for_each (zseq 0 (dim_or_3 g)) f) g /\
      cw (fun ru => with_rules ru g) f
         (fun i r => quad_F true (pick (or_else v0 (ax_p (og_axis g 0) + 1)) (o_quadrature o) i) r) (zseq 0 (dim_or_3 g)).
  Proof.
    intros o sizes g v0 H3 Hs H0. unfold opt_quadrature. set (dim := dim_or_3 g) in *.
    assert (Hd : 1 <= dim) by apply dim_or_3_pos.
    destruct (read_array (o_quadrature o) dim (default_sizes g sizes)) as [[x n] flg] eqn:ER.
    destruct (read_array_n _ _ _ _ _ _ _ ER) as (Hf & _).
    exists (fun i => when (0 <? (if i <? n then x i else x 0)) (set_quadrature lit i (if i <? n then x i else x 0))). split.
    - rewrite <- Hf. reflexivity.
    - intros i h Hi. rewrite (quad_cw (fun i => if i <? n then x i else x 0) g (zseq 0 dim) Hs i h Hi). apply in_zseq in Hi.
      rewrite (read_pick _ _ _ _ _ _ _ _ ER) by lia.
      replace (default_sizes g sizes 0) with (or_else v0 (ax_p (og_axis g 0) + 1)); [reflexivity|].
      unfold default_sizes. fold dim. replace (0 <? dim) with true by (symmetry; apply Z.ltb_lt; lia). change (0 <? 3) with true. cbn [andb].
      rewrite H0. symmetry. apply or_else_lt.
  Qed.

  Definition rule_result (o : opts) (g : oiga) (i : Z) (r : rule) : status * rule :=
    let p := ax_p (og_axis g i) in
    bind (rule_F (given (o_rule_type o)) (given (o_rule_size o)) (asked_type o i r) (asked_size o i r p) p r)
         (quad_F (given (o_quadrature o)) (asked_quadrature o i (og_rule g 0) (ax_p (og_axis g 0)))).

  Lemma opt_rules_quadrature_ok : forall o rtype rsize g g1, dim_or_3 g <= 3 -> og_setup g = false ->
    (forall i, 0 <= i < dim_or_3 g -> rtype i = ru_type (og_rule g i)) ->
    (forall i, 0 <= i < dim_or_3 g -> rsize i = (if 0 <? ru_nqp (og_rule g i) then ru_nqp (og_rule g i) else PETSC_DECIDE)) ->
    bind (opt_rules lit o rtype rsize g) (opt_quadrature lit o (fst (rule_sizes o rsize g))) = (Ok, g1) ->
    exists ru, g1 = with_rules ru g /\
      (forall i, 0 <= i < dim_or_3 g -> rule_result o g i (og_rule g i) = (Ok, ru i)) /\
      (forall i, ~ 0 <= i < dim_or_3 g -> ru i = og_rule g i).
  Proof.
    intros o rtype rsize g g1 H3 Hs Ht Hz H. apply bind_ok in H. destruct H as (g0 & H0 & H).
    assert (Hd : 1 <= dim_or_3 g) by apply dim_or_3_pos.
    destruct (opt_rules_form o rtype rsize g H3 Hs Ht Hz) as (f & Ef & Hcw). rewrite Ef in H0.
    assert (A : exists ru, g0 = with_rules ru g /\
      (forall i, 0 <= i < dim_or_3 g -> rule_F (given (o_rule_type o)) (given (o_rule_size o)) (asked_type o i (og_rule g i))
                       (asked_size o i (og_rule g i) (ax_p (og_axis g i))) (ax_p (og_axis g i)) (og_rule g i) = (Ok, ru i)) /\
      (forall i, ~ 0 <= i < dim_or_3 g -> ru i = og_rule g i)).
    { unfold when in H0. destruct (given (o_rule_type o) || given (o_rule_size o)) eqn:EG.
      - rewrite <- (with_rules_own g) in H0 at 2.
        destruct (cw_run _ _ _ _ _ _ Hcw (NoDup_zseq _ _) H0) as (ru & E & E1 & E2). exists ru. split; [exact E|]. split.
        + intros i Hi. apply E1. apply in_zseq. lia.
        + intros i Hi. apply E2. rewrite in_zseq. lia.
      - injection H0 as <-. exists (og_rule g). split; [symmetry; apply with_rules_own|]. split; [|reflexivity].
        intros i Hi. apply orb_false_iff in EG. destruct EG as (-> & ->). reflexivity. }
    destruct A as (ru0 & -> & A1 & A2).
    assert (E0 : fst (rule_sizes o rsize g) 0 = asked_size o 0 (og_rule g 0) (ax_p (og_axis g 0))).
    { destruct (rule_sizes o rsize g) as [sz flg] eqn:ES. cbn [fst]. apply (rule_sizes_asked o g rsize sz flg 0 H3 ltac:(lia) (Hz 0 ltac:(lia)) ES). }
    destruct (opt_quadrature_form o (fst (rule_sizes o rsize g)) (with_rules ru0 g) _ H3 Hs E0) as (f2 & Ef2 & Hcw2). rewrite Ef2 in H.
    change (dim_or_3 (with_rules ru0 g)) with (dim_or_3 g) in *.
    change (ax_p (og_axis (with_rules ru0 g) 0)) with (ax_p (og_axis g 0)) in *.
    unfold when in H. destruct (given (o_quadrature o)) eqn:EQ.
    - destruct (cw_run _ _ _ _ ru0 g1 Hcw2 (NoDup_zseq _ _) H) as (ru & E & E1 & E2). exists ru. split; [exact E|]. split.
      + intros i Hi. unfold rule_result. cbv zeta. rewrite A1 by exact Hi. cbn [bind]. rewrite EQ. apply E1. apply in_zseq. lia.
      + intros i Hi. rewrite E2 by (rewrite in_zseq; lia). apply A2. exact Hi.
    - injection H as <-. exists ru0. split; [reflexivity|]. split; [|exact A2].
      intros i Hi. unfold rule_result. cbv zeta. rewrite A1 by exact Hi. cbn [bind]. rewrite EQ. reflexivity.
  Qed.

  (** Conversely: if every direction can be done, both loops succeed. *)
  Lemma opt_rules_quadrature_total : forall o rtype rsize g, dim_or_3 g <= 3 -> og_setup g = false ->
    (forall i, 0 <= i < dim_or_3 g -> rtype i = ru_type (og_rule g i)) ->
    (forall i, 0 <= i < dim_or_3 g -> rsize i = (if 0 <? ru_nqp (og_rule g i) then ru_nqp (og_rule g i) else PETSC_DECIDE)) ->
    (forall i, 0 <= i < dim_or_3 g -> rule_result o g i (og_rule g i) = (Ok, og_rule g i)) ->
    bind (opt_rules lit o rtype rsize g) (opt_quadrature lit o (fst (rule_sizes o rsize g))) = (Ok, g).
  Proof.
    intros o rtype rsize g H3 Hs Ht Hz HR. assert (Hd : 1 <= dim_or_3 g) by apply dim_or_3_pos.
    destruct (opt_rules_form o rtype rsize g H3 Hs Ht Hz) as (f & Ef & Hcw). rewrite Ef.
    assert (E0 : fst (rule_sizes o rsize g) 0 = asked_size o 0 (og_rule g 0) (ax_p (og_axis g 0))).
    { destruct (rule_sizes o rsize g) as [sz flg] eqn:ES. cbn [fst]. apply (rule_sizes_asked o g rsize sz flg 0 H3 ltac:(lia) (Hz 0 ltac:(lia)) ES). }
    set (mid := fun i => match rule_F (given (o_rule_type o)) (given (o_rule_size o)) (asked_type o i (og_rule g i))
                       (asked_size o i (og_rule g i) (ax_p (og_axis g i))) (ax_p (og_axis g i)) (og_rule g i) with (_, r) => r end).
    assert (Hmid : forall i, 0 <= i < dim_or_3 g ->
      rule_F (given (o_rule_type o)) (given (o_rule_size o)) (asked_type o i (og_rule g i))
                       (asked_size o i (og_rule g i) (ax_p (og_axis g i))) (ax_p (og_axis g i)) (og_rule g i) = (Ok, mid i) /\
      quad_F (given (o_quadrature o)) (asked_quadrature o i (og_rule g 0) (ax_p (og_axis g 0))) (mid i) = (Ok, og_rule g i)).
    { intros i Hi. specialize (HR i Hi). unfold rule_result in HR. apply bind_ok in HR. destruct HR as (r & HR1 & HR2).
      unfold mid. rewrite HR1. auto. }
    assert (A : exists ru, when (given (o_rule_type o) || given (o_rule_size o)) (for_each (zseq 0 (dim_or_3 g)) f) g = (Ok, with_rules ru g) /\
      (forall i, 0 <= i < dim_or_3 g -> ru i = mid i) /\ (forall i, ~ 0 <= i < dim_or_3 g -> ru i = og_rule g i)).
    { unfold when. destruct (given (o_rule_type o) || given (o_rule_size o)) eqn:EG.
      - destruct (cw_total _ _ _ _ (og_rule g) mid Hcw (NoDup_zseq _ _)) as (ru & E & E1 & E2).
        { intros i Hi. apply in_zseq in Hi. apply (Hmid i). lia. }
        rewrite with_rules_own in E. exists ru. split; [exact E|]. split.
        + intros i Hi. apply E1. apply in_zseq. lia.
        + intros i Hi. apply E2. rewrite in_zseq. lia.
      - exists (og_rule g). split; [rewrite with_rules_own; reflexivity|]. split; [|reflexivity].
        intros i Hi. unfold mid. apply orb_false_iff in EG. destruct EG as (-> & ->). reflexivity. }
    destruct A as (ru0 & -> & A1 & A2). cbn [bind].
    destruct (opt_quadrature_form o (fst (rule_sizes o rsize g)) (with_rules ru0 g) _ H3 Hs E0) as (f2 & Ef2 & Hcw2). rewrite Ef2.
    change (dim_or_3 (with_rules ru0 g)) with (dim_or_3 g) in *.
    change (ax_p (og_axis (with_rules ru0 g) 0)) with (ax_p (og_axis g 0)) in *.
    unfold when. destruct (given (o_quadrature o)) eqn:EQ.
    - destruct (cw_total _ _ _ _ ru0 (og_rule g) Hcw2 (NoDup_zseq _ _)) as (ru & E & E1 & E2).
      { intros i Hi. apply in_zseq in Hi. rewrite A1 by lia. apply Hmid. lia. }
      change (with_rules ru0 (with_rules ru0 g)) with (with_rules ru0 g) in E. rewrite E. f_equal.
      rewrite <- (with_rules_own g) at 2. change (with_rules ru (with_rules ru0 g)) with (with_rules ru g). f_equal. apply functional_extensionality. intros i.
      destruct (in_dec Z.eq_dec i (zseq 0 (dim_or_3 g))) as [Hi|Hi]; [apply E1; exact Hi|].
      rewrite E2 by exact Hi. apply A2. intros K. apply Hi. apply in_zseq. lia.
    - f_equal. rewrite <- (with_rules_own g) at 2. f_equal. apply functional_extensionality. intros i.
      destruct (in_dec Z.eq_dec i (zseq 0 (dim_or_3 g))) as [Hi|Hi].
      + apply in_zseq in Hi. rewrite A1 by lia. destruct (Hmid i ltac:(lia)) as (_ & E). injection E as E. exact E.
      + apply A2. intros K. apply Hi. apply in_zseq. lia.
  Qed.

  (** ** one rule *)
  Lemma rule_setup_keeps : forall r r', rule_setup lit r = (Ok, r') -> ru_type r' = ru_type r /\ ru_nqp r' = ru_nqp r.
  Proof.
    intros r r' H. unfold rule_setup in H. destruct (ru_nqp r <? 1); [discriminate|].
    destruct (compute_rule lit (ru_type r) (ru_nqp r)) as [[[X W]|]|]; try discriminate; injection H as <-; auto.
  Qed.
  Lemma size_F_ok : forall n r r', size_F n r = (Ok, r') -> ru_type r' = ru_type r /\ ru_nqp r' = n.
  Proof.
    intros n r r' H. unfold size_F in H. destruct (Z.eqb_spec (ru_nqp r) n) as [E|E]; [injection H as <-; auto|].
    unfold rule_set_size in H. destruct (n <? 1); [discriminate|]. destruct (ru_nqp r =? n) eqn:E2; [apply Z.eqb_eq in E2; lia|].
    apply rule_setup_keeps in H. cbn in H. exact H.
  Qed.
  Lemma set_type_ok : forall t r r', rule_set_type lit t r = (Ok, r') -> ru_type r' = t /\ ru_nqp r' = ru_nqp r.
  Proof.
    intros t r r' H. unfold rule_set_type in H. destruct (rtype_eqb (ru_type r) t) eqn:E.
    - apply rtype_eqb_eq in E. injection H as <-. auto.
    - cbn [ru_nqp] in H. destruct (0 <? ru_nqp r); [apply rule_setup_keeps in H; cbn in H; exact H|injection H as <-; auto].
  Qed.

  Lemma rule_result_facts : forall o g i r r', rule_result o g i r = (Ok, r') ->
    let p := ax_p (og_axis g i) in
    let q := asked_quadrature o i (og_rule g 0) (ax_p (og_axis g 0)) in
    ru_type r' = asked_type o i r /\
    ru_nqp r' = if given (o_quadrature o) && (0 <? q) then q
                else if given (o_rule_size o) then or_else (asked_size o i r p) (own_size r p) else ru_nqp r.
  Proof.
    intros o g i r r' H p q. unfold rule_result in H. fold p q in H. apply bind_ok in H. destruct H as (r1 & H1 & H2).
    assert (K : ru_type r1 = asked_type o i r /\ ru_nqp r1 = if given (o_rule_size o) then or_else (asked_size o i r p) (own_size r p) else ru_nqp r).
    { unfold rule_F in H1. apply bind_ok in H1. destruct H1 as (r0 & H0 & H1). unfold when in H0, H1.
      assert (K0 : ru_type r0 = asked_type o i r /\ (given (o_rule_size o) = false -> ru_nqp r0 = ru_nqp r)).
      { destruct (given (o_rule_type o)) eqn:E1.
        - apply set_type_ok in H0. destruct H0 as (T & N). split; [exact T|]. intros E. rewrite E in N. cbn in N. exact N.
        - cbn [andb] in H0. injection H0 as <-. split; [|auto]. unfold asked_type. destruct (o_rule_type o); [discriminate|reflexivity]. }
      destruct K0 as (KT & KN). destruct (given (o_rule_size o)).
      - apply size_F_ok in H1. destruct H1 as (T & N). rewrite T, N. auto.
      - injection H1 as <-. auto. }
    destruct K as (KT & KN). unfold quad_F, when in H2. destruct (given (o_quadrature o) && (0 <? q)).
    - apply size_F_ok in H2. destruct H2 as (T & N). rewrite T, N. auto.
    - injection H2 as <-. auto.
  Qed.

  Lemma rule_setup_none : forall t n, 0 < n -> compute_rule lit t n <> Some None ->
    exists r, rule_setup lit (mk_rule t n None None) = (Ok, r).
  Proof.
    intros t n Hn Hc. unfold rule_setup. cbn. replace (n <? 1) with false by (symmetry; apply Z.ltb_ge; lia).
    destruct (compute_rule lit t n) as [[[X W]|]|]; eauto; congruence.
  Qed.
  Lemma size_F_new : forall n r, ru_nqp r <> n -> 0 < n -> size_F n r = rule_setup lit (mk_rule (ru_type r) n None None).
  Proof.
    intros n r Hne Hn. unfold size_F, rule_set_size. replace (ru_nqp r =? n) with false by (symmetry; apply Z.eqb_neq; auto).
    replace (n <? 1) with false by (symmetry; apply Z.ltb_ge; lia). reflexivity.
  Qed.
  Lemma size_F_same : forall n r, ru_nqp r = n -> size_F n r = (Ok, r).
  Proof. intros n r <-. unfold size_F. rewrite Z.eqb_refl. reflexivity. Qed.
  Lemma set_type_same : forall t r, ru_type r = t -> rule_set_type lit t r = (Ok, r).
  Proof. intros t r <-. unfold rule_set_type. replace (rtype_eqb (ru_type r) (ru_type r)) with true by (symmetry; apply rtype_eqb_eq; reflexivity). reflexivity. Qed.

  (** One direction, done twice. *)
  Lemma rule_twice : forall flg1 flg2 flg t q p r r' v v',
    1 <= p -> (0 < ru_nqp r -> compute_rule lit (ru_type r) (ru_nqp r) <> Some None) ->
    (flg1 = false -> t = ru_type r) ->
    bind (rule_F flg1 flg2 t v p r) (quad_F flg q) = (Ok, r') ->
    (v' = v \/ v' = own_size r' p /\ v = own_size r p) ->
    bind (rule_F flg1 flg2 t v' p r') (quad_F flg q) = (Ok, r').
  Proof.
    intros flg1 flg2 flg t q p r r' v v' Hp Hwf Ht H Hv.
    apply bind_ok in H. destruct H as (r1 & H1 & H2). unfold rule_F in H1. apply bind_ok in H1. destruct H1 as (r0 & H0 & H1).
    unfold when in H0, H1.
    assert (T0 : ru_type r0 = t).
    { destruct flg1; [apply set_type_ok in H0; apply H0|]. cbn in H0. injection H0 as <-. symmetry. auto. }
    assert (T1 : ru_type r1 = t) by (destruct flg2; [apply size_F_ok in H1; destruct H1; congruence|injection H1 as <-; exact T0]).
    assert (T2 : ru_type r' = t).
    { unfold quad_F, when in H2. destruct (flg && (0 <? q)); [apply size_F_ok in H2; destruct H2; congruence|injection H2 as <-; exact T1]. }
    destruct flg2.
    2:{ (* no sizes *)
      injection H1 as <-. unfold rule_F. rewrite andb_false_r. unfold when at 1.
      replace (if flg1 then rule_set_type lit t r' else (Ok, r')) with (Ok, r') by (destruct flg1; [rewrite set_type_same by exact T2|]; reflexivity).
      cbn [bind]. unfold when at 1. cbn [bind]. unfold quad_F, when in *. destruct (flg && (0 <? q)); [|reflexivity].
      apply size_F_same. apply size_F_ok in H2. apply H2. }
    set (n := wanted v p r) in *. set (n' := wanted v' p r').
    assert (Hn : 0 < n).
    { unfold n, wanted, or_else. destruct (Z.ltb_spec 0 v); [lia|]. destruct (Z.ltb_spec 0 (ru_nqp r)); lia. }
    pose proof (size_F_ok _ _ _ H1) as (_ & N1).
    assert (N2 : ru_nqp r' = if flg && (0 <? q) then q else n).
    { unfold quad_F, when in H2. destruct (flg && (0 <? q)); [apply size_F_ok in H2; apply H2|injection H2 as <-; exact N1]. }
    assert (Hn2 : 0 < ru_nqp r').
    { rewrite N2. destruct flg; cbn [andb]; [destruct (Z.ltb_spec 0 q); lia|lia]. }
    assert (Hn' : n' = n \/ n' = ru_nqp r').
    { unfold n', n, wanted. destruct Hv as [->|(-> & ->)].
      - unfold or_else. destruct (0 <? v); [left; reflexivity|]. right.
        replace (0 <? ru_nqp r') with true by (symmetry; apply Z.ltb_lt; exact Hn2). reflexivity.
      - right. unfold own_size, or_else. rewrite !(proj2 (Z.ltb_lt 0 (ru_nqp r')) Hn2). reflexivity. }
    (* the sequence on a rule with the type set and not of size n' *)
    assert (Hcomp : rule_setup lit (mk_rule t n None None) = (Ok, r1) \/ (flg1 = false /\ ru_nqp r = n /\ r1 = r)).
    { destruct (Z.eq_dec (ru_nqp r0) n) as [E|E].
      - right. rewrite size_F_same in H1 by exact E. injection H1 as <-. destruct flg1.
        + apply set_type_ok in H0. cbn in H0. lia.
        + cbn in H0. injection H0 as <-. auto.
      - left. rewrite size_F_new in H1 by assumption. rewrite T0 in H1. exact H1. }
    assert (Hq : forall x, ru_type x = t -> ru_nqp x = n -> (n = ru_nqp r' -> x = r') -> quad_F flg q x = (Ok, r')).
    { intros x Tx Nx Ex. unfold quad_F, when in H2 |- *. destruct (flg && (0 <? q)) eqn:EQ.
      - destruct (Z.eq_dec n q) as [E|E].
        + rewrite size_F_same by congruence. rewrite Ex by congruence. reflexivity.
        + apply andb_true_iff in EQ. destruct EQ as (_ & EQ). apply Z.ltb_lt in EQ.
          rewrite size_F_new in H2 |- * by congruence. rewrite Tx. rewrite T1 in H2. exact H2.
      - rewrite Ex by congruence. reflexivity. }
    assert (Hq2 : quad_F flg q r' = (Ok, r')).
    { unfold quad_F, when. destruct (flg && (0 <? q)); [apply size_F_same; exact N2|reflexivity]. }
    assert (Efin : n = ru_nqp r' -> r1 = r').
    { intros E. unfold quad_F, when in H2. destruct (flg && (0 <? q)); [|injection H2 as <-; reflexivity].
      rewrite size_F_same in H2 by congruence. injection H2 as <-. reflexivity. }
    unfold rule_F. fold n'. unfold when at 1 2. destruct flg1.
    - (* type and size: starts from scratch *)
      cbn [andb]. rewrite set_type_same by exact T2. cbn [bind].
      assert (Hnz : ru_nqp (rule_reset r') <> n') by (cbn; lia).
      rewrite size_F_new by (try exact Hnz; lia). change (ru_type (rule_reset r')) with (ru_type r'). rewrite T2.
      destruct Hcomp as [Hc|(Hd1 & _)]; [|discriminate].
      destruct Hn' as [ -> | -> ].
      + rewrite Hc. cbn [bind]. apply Hq; auto.
      + destruct (Z.eq_dec (ru_nqp r') n) as [E|E].
        * rewrite E, Hc. cbn [bind]. apply Hq; auto.
        * assert (EQ : flg && (0 <? q) = true) by (destruct (flg && (0 <? q)); [reflexivity|congruence]).
          unfold quad_F, when in H2. rewrite EQ in H2. rewrite EQ in N2. rewrite N2. rewrite size_F_new in H2 by lia.
          rewrite T1 in H2. rewrite H2. cbn [bind]. exact Hq2.
    - cbn [andb bind]. destruct (Z.eq_dec (ru_nqp r') n') as [E|E].
      + rewrite size_F_same by exact E. cbn [bind]. exact Hq2.
      + destruct Hn' as [En|En]; [|congruence]. rewrite size_F_new by (try exact E; lia). rewrite T2, En.
        destruct Hcomp as [Hc|(_ & Er & Er1)].
        * rewrite Hc. cbn [bind]. apply Hq; auto.
        * destruct (rule_setup_none t n Hn) as (x & Ex).
          { rewrite <- Er, (Ht eq_refl). apply Hwf. lia. }
          rewrite Ex. cbn [bind]. apply rule_setup_keeps in Ex. cbn in Ex. destruct Ex as (Ex1 & Ex2). apply Hq; auto. congruence.
  Qed.
End Rules.
