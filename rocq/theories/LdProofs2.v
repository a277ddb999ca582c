(** The loads assembled from the faces of all elements. *)
From Coq Require Import ZArith List Bool Lia Reals Lra.
From Coq Require Import ZifyBool ZifyNat.
From Coquelicot Require Import Coquelicot.
From Verif Require Import Prelude RealOrd AxisModel AxisSpec AxisProofs AxisInitModel PartModel SetupModel SetupProofs Box GridModel GridSpec GridProofs GridSetup
  ElemModel ElemSpec RuleModel BCModel BCSpec BasSpec DrvSpec PcProofs PcProofs2 TabProofs3 TabProofs5 LdModel LdSpec LdProofs.
From Verif Require Import Box.
Import ListNotations.
Open Scope Z_scope.

(** ** Loads as a sum over faces *)
Lemma loaded_sum dim per sizes ID nen load area t c :
  match loaded dim per sizes ID nen load area t c with Some w => w | None => 0%R end =
  rsum (fun f => if on_face per sizes ID nen t f then match lookup c (load (fst f) (snd f)) with Some v => v * area (fst f) (snd f) | None => 0 end else 0)%R (faces dim).
Proof.
  unfold loaded.
  assert (G : forall l cur, match fold_left (fun cur f => if on_face per sizes ID nen t f then
        match lookup c (load (fst f) (snd f)) with
        | Some v => Some ((match cur with Some w => w | None => 0 end) + v * area (fst f) (snd f))%R
        | None => cur
        end else cur) l cur with Some w => w | None => 0%R end =
     ((match cur with Some w => w | None => 0 end) + rsum (fun f => if on_face per sizes ID nen t f then match lookup c (load (fst f) (snd f)) with Some v => v * area (fst f) (snd f) | None => 0 end else 0) l)%R).
  { induction l as [|f l IH]; intros cur; cbn [fold_left].
    - unfold rsum. cbn. ring.
    - rewrite IH. change (rsum ?g (f :: l)) with (g f + rsum g l)%R. cbv beta.
      destruct (on_face _ _ _ _ _ _); [|ring]. destruct (lookup c _); ring. }
  rewrite G. ring.
Qed.

(** ** The weight of a face as a product over the directions *)
Definition wgt (dim dir : Z) (h : Z -> Z -> R) (p : Z -> Z) (i e : Z) : R :=
  if i <? dim then if i =? dir then 1%R else (h i e / (IZR (p i) + 1))%R else 1%R.
Lemma area_prod dim BD h p ID dir side : 1 <= dim <= 3 -> 0 <= dir < dim ->
  (forall i, 0 <= i < dim -> bq_nen (BD i) = p i + 1 /\ 1 <= p i /\ bq_detJac (BD i) (ID i) = (h i (ID i) / 2)%R) ->
  boundary_area dim BD None ID dir side = (wgt dim dir h p 0 (ID 0%Z) * wgt dim dir h p 1 (ID 1%Z) * wgt dim dir h p 2 (ID 2%Z))%R.
Proof.
  intros Hdim Hdir HB. unfold boundary_area, wgt.
  assert (P : forall i, 0 <= i < dim -> IZR (bq_nen (BD i)) = (IZR (p i) + 1)%R /\ (IZR (p i) + 1 <> 0)%R /\ bq_detJac (BD i) (ID i) = (h i (ID i) / 2)%R).
  { intros i Hi. destruct (HB i Hi) as (-> & B & C). split; [apply plus_IZR|]. split; [|exact C]. apply IZR_le in B. lra. }
  assert (D : dim = 1 \/ dim = 2 \/ dim = 3) by lia. destruct D as [-> | [-> | ->]].
  - assert (dir = 0) by lia. subst dir. zc. ring.
  - change (zseq 0 2) with [0; 1]. destruct (P 0 ltac:(lia)) as (A0 & B0 & C0). destruct (P 1 ltac:(lia)) as (A1 & B1 & C1).
    assert (D : dir = 0 \/ dir = 1) by lia. destruct D as [-> | ->]; cbn [fold_left]; zc;
      rewrite ?A0, ?A1, ?C0, ?C1; field; auto.
  - change (zseq 0 3) with [0; 1; 2]. destruct (P 0 ltac:(lia)) as (A0 & B0 & C0). destruct (P 1 ltac:(lia)) as (A1 & B1 & C1). destruct (P 2 ltac:(lia)) as (A2 & B2 & C2).
    assert (D : dir = 0 \/ dir = 1 \/ dir = 2) by lia. destruct D as [-> | [-> | ->]]; cbn [fold_left]; zc;
      rewrite ?A0, ?A1, ?A2, ?C0, ?C1, ?C2; field; auto.
Qed.

(** ** Sums over elements and local nodes *)
Definition ind (b : bool) : R := if b then 1%R else 0%R.
Lemma ind_and a b : ind (a && b) = (ind a * ind b)%R.
Proof. destruct a, b; cbn; ring. Qed.

Lemma rsum_if_one n x : rsum (fun a => ind (a =? x)) (zseq 0 n) = ind ((0 <=? x) && (x <? n)).
Proof.
  destruct ((0 <=? x) && (x <? n)) eqn:E.
  - exact (rsum_delta' n x (fun _ => 1%R) ltac:(lia)).
  - apply rsum_zero. intros a Ha. apply in_zseq in Ha. replace (a =? x) with false by lia. reflexivity.
Qed.

Lemma count_block (U : Z -> R) m p a : 1 <= p -> 1 <= a -> a + p <= m - 1 -> (forall i j, 0 <= i -> i <= j -> j <= m -> (U i <= U j)%R) ->
  @count_eq Rord U 1 (m-1) (U a) <= p -> (U a < U (a+p)%Z)%R.
Proof.
  intros Hp Ha Hap Hm Hc. destruct (Rlt_dec (U a) (U (a+p)%Z)) as [|N]; [assumption|]. exfalso.
  assert (B : forall x, In x (zseq a (p+1)) -> @keqb Rord (U x) (U a) = true).
  { intros x Hx. apply in_zseq in Hx. apply (keqb_spec (O:=Rord)), keq_R. pose proof (Hm a x ltac:(lia) ltac:(lia) ltac:(lia)). pose proof (Hm x (a+p) ltac:(lia) ltac:(lia) ltac:(lia)). lra. }
  unfold count_eq in Hc. replace (m-1-1+1) with ((a-1) + ((p+1) + (m-1-a-p))) in Hc by lia. rewrite zseq_app in Hc by lia. replace (1+(a-1)) with a in Hc by lia.
  rewrite zseq_app in Hc by lia. rewrite !filter_app, !app_length in Hc.
  assert (F : filter (fun i => @keqb Rord (U i) (U a)) (zseq a (p+1)) = zseq a (p+1)).
  { clear -B. induction (zseq a (p+1)) as [|x l IH]; cbn [filter]; [reflexivity|]. rewrite (B x) by (left; reflexivity). f_equal. apply IH. intros y Hy. apply B. right. exact Hy. }
  rewrite F in Hc. unfold zseq in Hc at 2. rewrite map_length, seq_length in Hc. lia.
Qed.

Section OneAxis.
  Variables (a : axis Rord) (l : list Z).
  Hypothesis Hwf : wf a l.
  Hypothesis Hends : ends_nonempty (ax_p a) (ax_m a) (ax_U a).
  Hypothesis Hcl : clamped a.
  Let p := ax_p a.
  Let m := ax_m a.
  Let U := ax_U a.
  Let nel := ax_nel a.
  Let s := span_at a.
  Lemma ax_facts : 1 <= p /\ 2*p+1 <= m /\ (forall i j, 0 <= i -> i <= j -> j <= m -> (U i <= U j)%R) /\
    (forall c, 0 <= c <= m-p-1 -> (U c < U (c+p+1)%Z)%R) /\ 1 <= nel /\
    (forall e, 0 <= e < nel -> (p <= s e <= m-p-1) /\ (U (s e) < U (s e + 1)%Z)%R) /\
    (forall e, 0 <= e -> e + 1 < nel -> (s e < s (e+1) <= s e + p) /\ U (s e + 1) = U (s (e+1))) /\
    s 0 = p /\ s (nel-1) = m-p-1 /\ ax_nnp a = m - p.
  Proof.
    pose proof Hwf as (Hsp & (Hp & Hm & Hnd & Hc) & HL & Hn & Hnn). destruct (wf_ends a l Hwf Hends) as (E1 & E2 & E3).
    destruct Hcl as (Hper & C0 & C1).
    assert (M : forall i j, 0 <= i -> i <= j -> j <= m -> (U i <= U j)%R) by (intros; apply kle_R; apply Hnd; auto).
    split; [exact Hp|]. split; [exact Hm|]. split; [exact M|]. split.
    { intros c Hr. destruct (Z.eq_dec c 0) as [-> |Hc0].
      - pose proof (count_block U m p 1 Hp ltac:(lia) ltac:(unfold m, p in *; lia) M (Hc _)) as B.
        pose proof (M 0 1 ltac:(lia) ltac:(lia) ltac:(unfold m, p in *; lia)). replace (0+p+1) with (1+p) by lia. lra.
      - pose proof (count_block U m p c Hp ltac:(lia) ltac:(unfold m, p in *; lia) M (Hc _)) as B.
        pose proof (M (c+p) (c+p+1) ltac:(unfold m, p in *; lia) ltac:(lia) ltac:(unfold m, p in *; lia)). lra. }
    split; [exact E1|]. split.
    { intros e He. destruct (span_at_elem a l Hwf e He) as [A B]. split; [exact A|]. apply klt_R in B. exact B. }
    split.
    { intros e He He1. pose proof (span_at_gap a l Hwf e (e+1) He ltac:(lia) He1). pose proof (span_at_step a l Hwf e He He1).
      split; [unfold s, p in *; lia|]. unfold nel in He1. pose proof (elements_contiguous _ _ _ _ Hp Hm Hnd HL (Z.to_nat e) 0 ltac:(lia)) as K.
      apply keq_R in K. unfold U, s, span_at. rewrite Hsp. replace (Z.to_nat (e+1)) with (S (Z.to_nat e)) by lia. exact K. }
    split; [exact E2|]. split; [exact E3|]. rewrite Hnn, Hper. reflexivity.
  Qed.

  (** Sum over elements and local nodes that are node t: tangential direction and the two ends. *)
  Lemma tangential t : 0 <= t < ax_nnp a ->
    rsum (fun e => rsum (fun b => ind ((s e - p + b) mod ax_nnp a =? t)%Z * ((U (s e + 1)%Z - U (s e)) / (IZR p + 1)))%R (zseq 0 (p+1))) (zseq 0 nel) = integral_1d a t.
  Proof.
    intros Ht. destruct ax_facts as (Hp & Hm & Hnd & Hsup & Hnel & Hs & Hstep & Hfirst & Hlast & Hnn). destruct Hcl as (_ & H0 & H1). rewrite Hnn in *.
    unfold integral_1d. fold p m U. rewrite (bspline_integral p m U Hp Hm Hnd H0 H1 Hsup nel s Hnel Hs Hstep Hfirst Hlast t ltac:(lia)).
    rewrite <- (support_lengths p m U Hp Hm Hnd H0 H1 Hsup nel s Hnel Hs Hstep Hfirst Hlast t ltac:(lia)).
    unfold Rdiv at 2. rewrite Rmult_comm, <- rsum_scal. apply rsum_ext. intros e He. apply in_zseq in He. destruct (Hs e ltac:(lia)) as [K _].
    rewrite (rsum_ext _ _ (fun b => ((U (s e + 1)%Z - U (s e)) / (IZR p + 1)) * ind (b =? t - (s e - p))%Z)%R).
    - rewrite rsum_scal, rsum_if_one. replace ((0 <=? t - (s e - p)) && (t - (s e - p) <? p + 1)) with ((s e - p <=? t) && (t <=? s e)) by lia.
      destruct ((s e - p <=? t) && (t <=? s e)); unfold ind, Rdiv; ring.
    - intros b Hb. apply in_zseq in Hb. rewrite Z.mod_small by lia. replace (s e - p + b =? t) with (b =? t - (s e - p)) by lia. ring.
  Qed.
  Lemma normal side t : side = 0 \/ side = 1 -> 0 <= t < ax_nnp a ->
    rsum (fun e => rsum (fun b => ind ((s e - p + b) mod ax_nnp a =? t)%Z * ind (if side =? 0 then (e =? 0) && (b =? 0) else (e =? nel - 1) && (b =? p + 1 - 1))%Z)%R (zseq 0 (p+1))) (zseq 0 nel) = trace_1d a side t.
  Proof.
    intros Hside Ht. destruct ax_facts as (Hp & Hm & Hnd & Hsup & Hnel & Hs & Hstep & Hfirst & Hlast & Hnn). destruct Hcl as (_ & H0 & H1). rewrite Hnn in *.
    unfold trace_1d. fold p m U. destruct Hside as [-> | ->]; zc.
    - rewrite (trace_left p m U Hp Hm Hnd H0 H1 Hsup nel s Hnel Hs Hstep Hfirst Hlast t ltac:(lia)).
      rewrite (rsum_ext _ _ (fun e => if e =? 0 then ind (0 =? t) else 0%R)); [rewrite (rsum_delta' nel 0 (fun _ => ind (0 =? t))) by lia; unfold delta, ind; destruct (Z.eqb_spec 0 t), (Z.eq_dec t 0); try reflexivity; lia|].
      intros e He. apply in_zseq in He. destruct (Z.eqb_spec e 0) as [-> |Ne].
      + rewrite Hfirst. rewrite (rsum_ext _ _ (fun b => if b =? 0 then ind (0 =? t) else 0%R)); [apply (rsum_delta' (p+1) 0 (fun _ => ind (0 =? t))); lia|].
        intros b Hb. apply in_zseq in Hb. rewrite Z.mod_small by lia. replace (p - p + b) with b by lia. cbn [andb]. destruct (Z.eqb_spec b 0); [subst|]; cbn [ind]; ring.
      + apply rsum_zero. intros b _. cbn [andb]. unfold ind at 2. ring.
    - rewrite (trace_right p m U Hp Hm Hnd H0 H1 Hsup nel s Hnel Hs Hstep Hfirst Hlast t ltac:(lia)).
      rewrite (rsum_ext _ _ (fun e => if e =? nel-1 then ind (m-p-1 =? t) else 0%R)); [rewrite (rsum_delta' nel (nel-1) (fun _ => ind (m-p-1 =? t))) by lia; unfold delta, ind; destruct (Z.eqb_spec (m-p-1) t), (Z.eq_dec t (m-p-1)); try reflexivity; lia|].
      intros e He. apply in_zseq in He. destruct (Z.eqb_spec e (nel-1)) as [-> |Ne].
      + rewrite Hlast. rewrite (rsum_ext _ _ (fun b => if b =? p then ind (m-p-1 =? t) else 0%R)); [apply (rsum_delta' (p+1) p (fun _ => ind (m-p-1 =? t))); lia|].
        intros b Hb. apply in_zseq in Hb. rewrite Z.mod_small by lia. cbn [andb]. replace (p+1-1) with p by lia. destruct (Z.eqb_spec b p); [subst; replace (m-p-1-p+p) with (m-p-1) by lia|]; unfold ind; ring.
      + apply rsum_zero. intros b _. cbn [andb]. unfold ind at 2. ring.
  Qed.
End OneAxis.

(** ** All directions *)
Section Loads.
  Variables (g2 : Z -> Z -> Z -> Z) (g3 : Z -> Z -> Z -> Z -> Z) (maxint size dim : Z) (axes : Z -> axis Rord) (user : list Z) (LY : Z -> layout).
  Hypothesis Hset : setup_ok g2 g3 maxint size dim axes user LY.
  Hypothesis Hcl : forall i, 0 <= i < dim -> clamped (axes i).
  Variable BD : Z -> basis_q.
  Hypothesis HBD : forall i, 0 <= i < dim -> bq_nen (BD i) = ax_p (axes i) + 1 /\
    forall e, bq_detJac (BD i) e = elem_detJac (ax_U (axes i)) (span_at (axes i) e).
  Variable load : Z -> Z -> list (Z * R).
  Let N := fun d => if d <? dim then ax_nnp (axes d) else 1.
  Let nel := fun d => if d <? dim then ax_nel (axes d) else 1.
  Let nen := fun d => if d <? dim then ax_p (axes d) + 1 else 1.
  Let first := fun e d => if d <? dim then span_at (axes d) (coord e d) - ax_p (axes d) else 0.
  Let per := fun d => ax_periodic (axes d).
  Let area := fun e => boundary_area dim BD None (coord e).
  Let loads := fun e a c => match loaded dim per nel (coord e) nen load (area e) a c with Some w => w | None => 0%R end.

  Lemma ld_dim : 1 <= dim <= 3.
  Proof. destruct (setup_form g2 g3 maxint size dim axes user LY Hset) as (n & _ & _ & H & _). exact H. Qed.

  Let hh := fun i e => (ax_U (axes i) (span_at (axes i) e + 1)%Z - ax_U (axes i) (span_at (axes i) e))%R.
  Let fac := fun (dir side : Z) (t : triple) (i e a : Z) =>
    (ind (((if i <? dim then span_at (axes i) e - ax_p (axes i) else 0) + a) mod N i =? coord t i)%Z *
     (ind (if i =? dir then if side =? 0 then (e =? 0) && (a =? 0) else (e =? nel i - 1) && (a =? nen i - 1) else true)%Z *
      wgt dim dir hh (fun i => ax_p (axes i)) i e))%R.

  Lemma on_node e a t : in_box zero3 N t -> triple_eqb (elem_node N first e a) t =
    ((first e 0 + coord a 0) mod N 0 =? coord t 0) && ((first e 1 + coord a 1) mod N 1 =? coord t 1) && ((first e 2 + coord a 2) mod N 2 =? coord t 2).
  Proof. intros _. destruct e as [[e1 e2] e3], a as [[a1 a2] a3], t as [[t1 t2] t3]. reflexivity. Qed.

  Lemma term dir side e a t : 0 <= dir < dim -> in_box zero3 N t ->
    (if triple_eqb (elem_node N first e a) t then if on_face per nel (coord e) nen a (dir, side) then area e dir side else 0 else 0)%R =
    (fac dir side t 0%Z (coord e 0) (coord a 0) * fac dir side t 1%Z (coord e 1) (coord a 1) * fac dir side t 2%Z (coord e 2) (coord a 2))%R.
  Proof.
    intros Hd Ht. rewrite on_node by exact Ht. pose proof ld_dim as Hdim. unfold area.
    rewrite (area_prod dim BD hh (fun i => ax_p (axes i)) (coord e) dir side Hdim Hd).
    2:{ intros i Hi. destruct (HBD i Hi) as [A B]. split; [exact A|]. split; [|rewrite B; reflexivity].
        destruct (setup_wf g2 g3 maxint size dim axes user LY Hset i Hi) as (l & (_ & (Q & _) & _) & _). exact Q. }
    unfold fac, on_face. destruct (Hcl dir Hd) as (Hper & _). fold (per dir) in Hper. rewrite Hper. cbn [negb andb].
    set (w0 := wgt _ _ _ _ 0 _). set (w1 := wgt _ _ _ _ 1 _). set (w2 := wgt _ _ _ _ 2 _).
    set (f := fun i => if side =? 0 then (coord e i =? 0) && (coord a i =? 0) else (coord e i =? nel i - 1) && (coord a i =? nen i - 1)).
    change (first e 0) with (if 0 <? dim then span_at (axes 0) (coord e 0) - ax_p (axes 0) else 0).
    change (first e 1) with (if 1 <? dim then span_at (axes 1) (coord e 1) - ax_p (axes 1) else 0).
    change (first e 2) with (if 2 <? dim then span_at (axes 2) (coord e 2) - ax_p (axes 2) else 0).
    set (n0 := _ =? coord t 0). set (n1 := _ =? coord t 1). set (n2 := _ =? coord t 2).
    fold (f dir) (f 0) (f 1) (f 2). clearbody n0 n1 n2 w0 w1 w2 f.
    assert (D : dir = 0 \/ dir = 1 \/ dir = 2) by lia. destruct D as [-> | [-> | ->]]; zc;
      destruct n0, n1, n2; cbn [andb]; try (unfold ind; ring); match goal with |- context [f ?i] => destruct (f i) end; unfold ind; ring.
  Qed.

  Lemma scatter_prod (g : Z -> Z -> Z -> R) :
    rsum (fun e => rsum (fun a => g 0%Z (coord e 0) (coord a 0) * g 1%Z (coord e 1) (coord a 1) * g 2%Z (coord e 2) (coord a 2))%R (box zero3 nen)) (box zero3 nel) =
    (rsum (fun e => rsum (g 0%Z e) (zseq 0 (nen 0%Z))) (zseq 0 (nel 0%Z)) * rsum (fun e => rsum (g 1%Z e) (zseq 0 (nen 1%Z))) (zseq 0 (nel 1%Z)) * rsum (fun e => rsum (g 2%Z e) (zseq 0 (nen 2%Z))) (zseq 0 (nel 2%Z)))%R.
  Proof.
    rewrite <- (rsum_box_prod nel (fun i e => rsum (g i e) (zseq 0 (nen i)))). apply rsum_ext. intros e _.
    exact (rsum_box_prod nen (fun i => g i (coord e i))).
  Qed.

  Lemma one_direction dir side t i : 0 <= dir < dim -> side = 0 \/ side = 1 -> in_box zero3 N t -> 0 <= i < 3 ->
    rsum (fun e => rsum (fac dir side t i e) (zseq 0 (nen i))) (zseq 0 (nel i)) =
    (if i <? dim then if i =? dir then trace_1d (axes i) side (coord t i) else integral_1d (axes i) (coord t i) else 1%R).
  Proof.
    intros Hd Hs Ht Hi. pose proof ld_dim as Hdim.
    assert (Hti : 0 <= coord t i < N i) by (destruct t as [[t1 t2] t3]; unfold in_box, zero3 in Ht; assert (D : i = 0 \/ i = 1 \/ i = 2) by lia; destruct D as [-> | [-> | ->]]; unfold coord; zc; lia).
    unfold fac, wgt, N, nel, nen in *. destruct (Z.ltb_spec i dim) as [L|L].
    - destruct (setup_wf g2 g3 maxint size dim axes user LY Hset i ltac:(lia)) as (l & W & E). pose proof (Hcl i ltac:(lia)) as C.
      destruct (Z.eqb_spec i dir) as [-> |Ne].
      + rewrite <- (normal (axes dir) l W E C side (coord t dir) Hs Hti). apply rsum_ext. intros e _. apply rsum_ext. intros b _. ring.
      + rewrite <- (tangential (axes i) l W E C (coord t i) Hti). apply rsum_ext. intros e _. apply rsum_ext. intros b _. change (ind true) with 1%R. unfold hh. rewrite Rmult_1_l. reflexivity.
    - replace (i =? dir) with false by lia. change (zseq 0 1) with [0]. replace (coord t i) with 0 by lia. unfold rsum. cbn [map fold_right]. change ((0 + 0) mod 1 =? 0) with true. change (ind true) with 1%R. ring.
  Qed.

  Theorem loads_are_weak t c : in_box zero3 N t -> plain_load N nen nel first loads t c = weak_load dim axes load t c.
  Proof.
    intros Ht. unfold plain_load, scatter, weak_load.
    transitivity (rsum (fun f => rsum (fun e => rsum (fun a => if triple_eqb (elem_node N first e a) t then
        (if on_face per nel (coord e) nen a f then match lookup c (load (fst f) (snd f)) with Some v => v * area e (fst f) (snd f) | None => 0 end else 0) else 0)%R (box zero3 nen)) (box zero3 nel)) (faces dim)).
    { symmetry. etransitivity; [apply rsum_comm|]. symmetry. apply rsum_ext. intros e _. symmetry. etransitivity; [apply rsum_comm|]. symmetry. apply rsum_ext. intros a _.
      destruct (triple_eqb _ _); [apply loaded_sum|symmetry; apply rsum_zero; reflexivity]. }
    apply rsum_ext. intros [dir side] Hf. cbn [fst snd].
    assert (Hf' : 0 <= dir < dim /\ (side = 0 \/ side = 1)).
    { unfold faces in Hf. apply in_flat_map in Hf. destruct Hf as (d & Hd & [[= <- <-]|[[= <- <-]|[]]]); apply in_zseq in Hd; split; try lia; auto. }
    destruct Hf' as [Hd Hs].
    destruct (lookup c (load dir side)) as [g|].
    - rewrite (rsum_ext _ _ (fun e => g * rsum (fun a => fac dir side t 0%Z (coord e 0) (coord a 0) * fac dir side t 1%Z (coord e 1) (coord a 1) * fac dir side t 2%Z (coord e 2) (coord a 2)) (box zero3 nen))%R).
      + rewrite rsum_scal. f_equal. rewrite (scatter_prod (fac dir side t)). unfold face_integral. rewrite !one_direction by (auto; lia). reflexivity.
      + intros e _. rewrite <- rsum_scal. apply rsum_ext. intros a _. rewrite <- term by auto.
        destruct (triple_eqb _ _); [|ring]. destruct (on_face _ _ _ _ _ _); ring.
    - apply rsum_zero. intros e _. apply rsum_zero. intros a _. destruct (triple_eqb _ _); [|reflexivity]. destruct (on_face _ _ _ _ _ _); reflexivity.
  Qed.
End Loads.
