(** Lemmas for the probe: what IGAProbeSetPoint leaves behind. *)
From Coq Require Import ZArith List Bool Lia Reals Lra Psatz.
From Coq Require Import ZifyBool ZifyNat.
From Verif Require Import Prelude RealOrd AxisModel AxisSpec AxisProofs AxisInitModel PartModel PartSpec PartProofs SetupModel SetupProofs SetupProps
  Box GridModel GridSpec GridProofs GridProofs2 GridSetup GridProps ElemModel ElemSpec ElemProofs AsmProofs ElemProps
  MapModel AxisProps ProbeModel ProbeSpec ProbeProofs2.
Import ListNotations.
Open Scope Z_scope.

Lemma root_of_spec size St : 0 <= size ->
  let root := root_of size St in
  (root = -1 /\ (forall r, 0 <= r < size -> pb_off (St r) = true)) \/
  (0 <= root < size /\ pb_off (St root) = false /\ forall r, root < r < size -> pb_off (St r) = true).
Proof.
  intros H. unfold root_of. replace size with (Z.of_nat (Z.to_nat size)) by lia. generalize (Z.to_nat size). clear H size.
  induction n as [|n IH]; [left; split; [reflexivity|intros; lia]|].
  rewrite Nat2Z.inj_succ, <- Z.add_1_r. rewrite zseq_snoc by lia. rewrite fold_left_app. cbn [fold_left]. rewrite Z.add_0_l.
  cbv zeta in IH. set (m := fold_left _ _ _) in *. destruct (pb_off (St (Z.of_nat n))) eqn:Q.
  - destruct IH as [[-> A]|(A & B & C)].
    + left. split; [reflexivity|]. intros r Hr. destruct (Z.eq_dec r (Z.of_nat n)) as [->|N]; [exact Q|apply A; lia].
    + right. rewrite Z.max_l by lia. split; [lia|]. split; [exact B|]. intros r Hr. destruct (Z.eq_dec r (Z.of_nat n)) as [->|N]; [exact Q|apply C; lia].
  - right. assert (M : m <= Z.of_nat n) by (destruct IH as [[-> A]|(A & B & C)]; lia). rewrite Z.max_r by lia.
    split; [lia|]. split; [exact Q|]. intros; lia.
Qed.

Section SetPoint.
  Variables (g2 : Z -> Z -> Z -> Z) (g3 : Z -> Z -> Z -> Z -> Z) (maxint size dim : Z) (axes : Z -> axis Rord) (user : list Z)
            (LY : Z -> layout).
  Hypothesis HS : setup_ok g2 g3 maxint size dim axes user LY.
  Variable E : penv.
  Hypothesis Edim : pe_dim E = dim.
  Hypothesis Eaxes : pe_axes E = axes.
  Hypothesis Egeom : forall r, 0 <= r < size -> pe_geom E r = ly_geom (LY r).
  Variable u : Z -> R.
  Hypothesis Hu : in_domain dim axes u.

  Let gs r d := r_gstart (ly_geom (LY r) d).
  Let gw r d := r_gwidth (ly_geom (LY r) d).

  Lemma pr_map_length r id : Z.of_nat (length (pr_map E r id)) = pr_nen E.
  Proof using HS Edim Eaxes Egeom.
    unfold pr_map. rewrite map_length.
    assert (Hp : forall d, 0 <= d < 3 -> 0 <= pr_p E d + 1).
    { intros d Hd. rewrite (pr_p_eq dim axes E Edim Eaxes). destruct (d <? dim) eqn:L; [|lia]. destruct (setup_wf _ _ _ _ _ _ _ _ HS d ltac:(lia)) as (l & (_ & (Hp & _) & _) & _). lia. }
    rewrite len_box3 by exact Hp. unfold vol, pr_nen. lia.
  Qed.

  Lemma gather_entry r id bs L f old a c : 0 <= r < size -> (forall d, dim <= d -> id d = 0) -> pr_off E r id = false ->
    local_copy (gs r) (gw r) bs L f -> 1 <= a <= pr_nen E -> 0 <= c < bs ->
    gather bs (pr_map E r id) L old (c + (a-1)*bs) = f (active_node dim axes id a) c.
  Proof using HS Edim Eaxes Egeom.
    intros Hr Hid Hoff HL Ha Hc.
    destruct (active_box g2 g3 maxint size dim axes user LY HS E Edim Eaxes Egeom id a Hid Ha) as (t & Ht & Hlin & Hact).
    pose proof (proj1 (on_process g2 g3 maxint size dim axes user LY HS E Edim Eaxes Egeom r id Hr ltac:(intros; apply Hid; lia)) Hoff t Ht) as Hin.
    unfold gather. rewrite pr_map_length.
    assert (B : 0 <= c + (a-1)*bs < pr_nen E * bs) by nia.
    replace ((0 <=? c + (a-1)*bs) && (c + (a-1)*bs <? pr_nen E * bs)) with true by lia.
    replace ((c + (a-1)*bs) mod bs) with c by (rewrite Z.mod_add by lia; rewrite Z.mod_small by lia; reflexivity).
    replace ((c + (a-1)*bs) / bs) with (a-1) by (rewrite Z.div_add by lia; rewrite Z.div_small by lia; lia).
    rewrite Hact. rewrite <- (HL _ _ Hin Hc). f_equal. rewrite Z.add_comm. f_equal. f_equal.
    unfold pr_map. rewrite (Egeom r Hr). rewrite <- Hlin. destruct t as [[i j] k].
    apply In_box in Ht. unfold in_box, zero3 in Ht.
    set (F := fun t : triple => _). rewrite (nth_indep _ 0 (F (0, 0, 0))) by (rewrite map_length; unfold pr_map in *;
      apply Nat2Z.inj_lt; rewrite len_box3 by (intros d Hd; assert (C : d = 0 \/ d = 1 \/ d = 2) by lia; destruct C as [-> | [-> | ->]]; lia);
      rewrite Z2Nat.id by (pose proof (lin_range (fun i => pr_p E i + 1) i j k ltac:(lia) ltac:(lia) ltac:(lia)); lia);
      apply lin_range; lia).
    rewrite map_nth. rewrite nth_box by lia. unfold F, zero3, tadd, tsub, gs, gw. unfold lin. rewrite !Z.add_0_l. reflexivity.
  Qed.

  (** State handed to the last part of IGAProbeSetPoint ([build]). *)
  Definition ready (A : triple -> Z -> R) (w : option (triple -> R)) (X : option (triple -> Z -> R)) (q : probe) : Prop :=
    spans_of dim axes u (pb_ID q) /\
    (forall d, 0 <= d < dim -> pb_point q d = u d) /\
    (forall a c, 1 <= a <= pr_nen E -> 0 <= c < pe_dof E -> pb_A q (c + (a-1) * pe_dof E) = A (active_node dim axes (pb_ID q) a) c) /\
    (match w with Some w => forall a, 1 <= a <= pr_nen E -> pb_W q (a-1) = w (active_node dim axes (pb_ID q) a) | None => True end) /\
    (match X with Some X => forall a c, 1 <= a <= pr_nen E -> 0 <= c < pe_nsd E -> pb_X q (c + (a-1) * pe_nsd E) = X (active_node dim axes (pb_ID q) a) c | None => True end).

  Lemma pr_ID_ext r v v' i : (forall d, d < dim -> v d = v' d) -> pr_ID E r v i = pr_ID E r v' i.
  Proof using Edim. clear Egeom. intros H. unfold pr_ID. rewrite Edim. destruct (i <? dim) eqn:Q; [|reflexivity]. rewrite H by (clear - Q; lia). reflexivity. Qed.

  Lemma active_ext k k' a : (forall d, 0 <= d < 3 -> k d = k' d) -> active_node dim axes k a = active_node dim axes k' a.
  Proof. intros H. unfold active_node. rewrite !H by lia. reflexivity. Qed.

  Section State.
    Variables (St : Z -> probe) (order : Z) (A : triple -> Z -> R) (w : option (triple -> R)) (X : option (triple -> Z -> R)).
    Hypothesis Hvec : forall r, 0 <= r < size -> exists L, pb_vec (St r) = Some L /\ local_copy (gs r) (gw r) (pe_dof E) L A.
    Hypothesis Hord : forall r, 0 <= r < size -> pb_order (St r) = order.
    Hypothesis HW : match pe_W E, w with Some W, Some w => forall r, 0 <= r < size -> local_copy (gs r) (gw r) 1 (W r) (fun t _ => w t)
                    | None, None => True | _, _ => False end.
    Hypothesis HX : match pe_X E, X with Some P, Some X => forall r, 0 <= r < size -> local_copy (gs r) (gw r) (pe_nsd E) (P r) X
                    | None, None => True | _, _ => False end.

    Lemma locate_facts r : 0 <= r < size ->
      let q := locate E r u (St r) in
      spans_of dim axes u (pb_ID q) /\ (forall d, dim <= d -> pb_ID q d = 0) /\ (forall d, 0 <= d < dim -> pb_point q d = u d) /\
      pb_off q = pr_off E r (pb_ID q) /\ pb_vec q = pb_vec (St r) /\ pb_order q = order /\ pb_coll q = pb_coll (St r) /\
      (forall r' i, 0 <= r' < size -> 0 <= i < 3 -> pr_ID E r' u i = pb_ID q i).
    Proof using HS Edim Eaxes Egeom Hu Hord Hvec.
      intros Hr. cbv zeta. unfold locate. cbn [pb_set_loc pb_ID pb_point pb_off pb_vec pb_order pb_coll]. rewrite Edim.
      destruct (located g2 g3 maxint size dim axes user LY HS E Edim Eaxes Egeom u Hu) as (k & K1 & K2 & K3).
      set (pt := fun i => if i <? dim then u i else pb_point (St r) i).
      assert (EX : forall i, pr_ID E r pt i = pr_ID E r u i) by (intros i; apply pr_ID_ext; intros d Hd; unfold pt; replace (d <? dim) with true by lia; reflexivity).
      assert (EK : forall i, 0 <= i < 3 -> pr_ID E r pt i = k i) by (intros i Hi; rewrite EX; apply K3; auto).
      pose proof (dim_bounds g2 g3 maxint size dim axes user LY HS) as HD.
      split; [|split; [|split; [|split; [|split; [|split; [|split]]]]]]; auto.
      - intros d Hd. rewrite EK by lia. apply K1. exact Hd.
      - intros d Hd. unfold pr_ID. rewrite Edim. replace (d <? dim) with false by lia. reflexivity.
      - intros d Hd. replace (d <? dim) with true by lia. reflexivity.
      - intros r' i Hr' Hi. rewrite EK by auto. apply K3; auto.
    Qed.

    Lemma take_ready r q : 0 <= r < size -> q = locate E r u (St r) -> pb_off q = false -> ready A w X (take E r q).
    Proof using HS Edim Eaxes Egeom Hu Hord Hvec HW HX.
      intros Hr Hq Hoff. destruct (locate_facts r Hr) as (F1 & F2 & F3 & F4 & F5 & F6 & _). rewrite <- Hq in *.
      destruct (Hvec r Hr) as (L & V1 & V2). rewrite F4 in Hoff. unfold ready, take. rewrite F5, V1.
      cbn [pb_set_data pb_ID pb_point pb_A pb_W pb_X].
      split; [exact F1|]. split; [exact F3|]. split; [|split].
      - intros a c Ha Hc. apply (gather_entry r (pb_ID q)); auto.
      - destruct (pe_W E) as [W|], w as [w'|]; try contradiction; auto. intros a Ha.
        replace (a-1) with (0 + (a-1)*1) by lia. rewrite (gather_entry r (pb_ID q) 1 (W r) (fun t _ => w' t) _ a 0 Hr F2 Hoff (HW r Hr) Ha); auto; lia.
      - destruct (pe_X E) as [P|], X as [X'|]; try contradiction; auto. intros a c Ha Hc. apply (gather_entry r (pb_ID q)); auto.
    Qed.

    Lemma bcast_in n x old j : 0 <= j < n -> bcast n x old j = x j.
    Proof using. clear. intros H. unfold bcast. replace ((0 <=? j) && (j <? n)) with true by lia. reflexivity. Qed.

    (** The states before [build]; the flags are those of the location step. *)
    Lemma set_point_self_ready r : 0 <= r < size ->
      let q := locate E r u (St r) in
      (pb_off q = true -> set_point_self E r u (St r) = q) /\
      (pb_off q = false -> exists q', set_point_self E r u (St r) = build E q' /\ ready A w X q' /\
         pb_off q' = false /\ pb_order q' = order /\ (exists L, pb_vec q' = Some L) /\ pb_coll q' = pb_coll (St r)).
    Proof using HS Edim Eaxes Egeom Hu Hord Hvec HW HX.
      intros Hr. cbv zeta. unfold set_point_self. destruct (locate_facts r Hr) as (F1 & F2 & F3 & F4 & F5 & F6 & F7 & _).
      set (q := locate E r u (St r)) in *.
      split; intros Hoff; rewrite Hoff; [reflexivity|].
      exists (take E r q). split; [reflexivity|]. split; [apply (take_ready r q Hr eq_refl Hoff)|].
      split; [exact Hoff|]. split; [exact F6|]. split; [|exact F7]. destruct (Hvec r Hr) as (L & V1 & _). exists L. change (pb_vec q = Some L). rewrite F5. exact V1.
    Qed.

    Lemma some_root : let root := root_of size (fun r => locate E r u (St r)) in
      0 <= root < size /\ pb_off (locate E root u (St root)) = false.
    Proof.
      cbv zeta. assert (H1 : 1 <= size) by (destruct HS as (_ & _ & Q & _); lia).
      destruct (root_of_spec size (fun r => locate E r u (St r)) ltac:(lia)) as [[R1 R2]|(R1 & R2 & _)]; [|auto].
      exfalso. destruct (located g2 g3 maxint size dim axes user LY HS E Edim Eaxes Egeom u Hu) as (k & K1 & K2 & K3).
      destruct (some_owner g2 g3 maxint size dim axes user LY HS E Edim Eaxes Egeom u k K1 K2) as (r & Hr & Ho).
      specialize (R2 r Hr). cbv beta in R2. destruct (locate_facts r Hr) as (_ & F2 & _ & F4 & _ & _ & _ & F8). rewrite F4 in R2.
      pose proof (dim_bounds g2 g3 maxint size dim axes user LY HS) as HD.
      pose proof (proj1 (on_process g2 g3 maxint size dim axes user LY HS E Edim Eaxes Egeom r k Hr ltac:(intros; apply K2; lia)) Ho) as O1.
      assert (O2 : pr_off E r (pb_ID (locate E r u (St r))) = false).
      { apply (proj2 (on_process g2 g3 maxint size dim axes user LY HS E Edim Eaxes Egeom r (pb_ID (locate E r u (St r))) Hr ltac:(intros; apply F2; lia))).
        intros a Ha. specialize (O1 a Ha). destruct a as [[i j] l]. unfold tadd in *. rewrite <- !(F8 r) by lia. rewrite !K3 by lia. exact O1. }
      congruence.
    Qed.

    Lemma set_point_all_ready : exists St', set_point_all E size u St = Some St' /\
      forall r, 0 <= r < size -> exists q', St' r = build E q' /\ ready A w X q' /\
         pb_off q' = pb_off (locate E r u (St r)) /\ pb_order q' = order /\ (exists L, pb_vec q' = Some L) /\ pb_coll q' = pb_coll (St r).
    Proof.
      destruct some_root as [R1 R2]. unfold set_point_all.
      set (root := root_of size (fun r => locate E r u (St r))) in *.
      replace (root <? 0) with false by lia. cbn [andb]. eexists. split; [reflexivity|]. intros r Hr. cbv beta zeta. rewrite R2.
      destruct (locate_facts r Hr) as (F1 & F2 & F3 & F4 & F5 & F6 & F7 & F8).
      destruct (locate_facts root R1) as (_ & _ & _ & _ & _ & _ & _ & F8').
      destruct (take_ready root (locate E root u (St root)) R1 eq_refl R2) as (T1 & T2 & T3 & T4 & T5).
      assert (AE : forall a, active_node dim axes (pb_ID (take E root (locate E root u (St root)))) a = active_node dim axes (pb_ID (locate E r u (St r))) a).
      { intros a. apply active_ext. intros d Hd. etransitivity; [symmetry; exact (F8' r d Hr Hd)|exact (F8 r d Hr Hd)]. }
      set (z := take E root (locate E root u (St root))) in *.
      set (q := if pb_off (locate E r u (St r)) then locate E r u (St r) else take E r (locate E r u (St r))).
      assert (Q : pb_ID q = pb_ID (locate E r u (St r)) /\ pb_point q = pb_point (locate E r u (St r)) /\ pb_off q = pb_off (locate E r u (St r)) /\
                  pb_vec q = pb_vec (locate E r u (St r)) /\ pb_order q = pb_order (locate E r u (St r)) /\ pb_coll q = pb_coll (locate E r u (St r))).
      { unfold q. generalize (pb_off (locate E r u (St r))) at 1 2 3 5 6 7. generalize (locate E r u (St r)). intros l []; repeat split. }
      destruct Q as (Q1 & Q2 & Q3 & Q4 & Q5 & Q6). destruct (Hvec r Hr) as (L & V1 & _).
      eexists. split; [reflexivity|]. rewrite Q4, F5, V1.
      unfold ready. cbn [pb_set_data pb_ID pb_point pb_A pb_W pb_X pb_off pb_order pb_vec pb_coll]. rewrite Q1, Q2, Q3, Q4, Q5, Q6.
      split; [|split; [reflexivity|split; [exact F6|split; [exists L; rewrite F5; exact V1|exact F7]]]].
      split; [exact F1|]. split; [exact F3|]. split; [|split].
      - intros a c Ha Hc. rewrite bcast_in by nia. rewrite T3 by auto. rewrite AE. reflexivity.
      - destruct (pe_W E) as [W|], w as [w'|]; try contradiction; auto. intros a Ha. rewrite bcast_in by lia. rewrite T4 by auto. rewrite AE. reflexivity.
      - destruct (pe_X E) as [P|], X as [X'|]; try contradiction; auto. intros a c Ha Hc. rewrite bcast_in by nia. rewrite T5 by auto. rewrite AE. reflexivity.
    Qed.
  End State.
End SetPoint.
