(** Lemmas for the probe: location of a point and gathered coefficients. *)
From Coq Require Import ZArith List Bool Lia Reals Lra Psatz.
From Coq Require Import ZifyBool ZifyNat.
From Verif Require Import Prelude RealOrd AxisModel AxisSpec AxisProofs AxisInitModel PartModel PartSpec PartProofs SetupModel SetupProofs SetupProps
  Box GridModel GridSpec GridProofs GridProofs2 GridSetup GridProps ElemModel ElemSpec ElemProofs AsmProofs ElemProps
  MapModel AxisProps ProbeModel ProbeSpec.
Import ListNotations.
Open Scope Z_scope.

Section Locate.
  Variables (g2 : Z -> Z -> Z -> Z) (g3 : Z -> Z -> Z -> Z -> Z) (maxint size dim : Z) (axes : Z -> axis Rord) (user : list Z)
            (LY : Z -> layout).
  Hypothesis HS : setup_ok g2 g3 maxint size dim axes user LY.
  Variable E : penv.
  Hypothesis Edim : pe_dim E = dim.
  Hypothesis Eaxes : pe_axes E = axes.
  Hypothesis Egeom : forall r, 0 <= r < size -> pe_geom E r = ly_geom (LY r).
  Variable u : Z -> R.
  Hypothesis Hu : in_domain dim axes u.

  Lemma pr_p_eq i : pr_p E i = if i <? dim then ax_p (axes i) else 0.
  Proof using Edim Eaxes. unfold pr_p. rewrite Edim, Eaxes. reflexivity. Qed.

  Lemma dim_bounds : 1 <= dim <= 3.
  Proof. destruct (setup_form _ _ _ _ _ _ _ _ HS) as (n & _ & _ & H & _). exact H. Qed.

  (** The spans found are those containing the point, the same on every rank. *)
  Lemma located : exists k, spans_of dim axes u k /\ (forall d, dim <= d -> k d = 0) /\
    forall r i, 0 <= r < size -> 0 <= i < 3 -> pr_ID E r u i = k i.
  Proof using HS Edim Eaxes Egeom Hu.
    exists (pr_ID E 0 u).
    assert (K : forall r d, 0 <= r < size -> 0 <= d < dim -> exists k,
      find_span (O:=Rord) (ax_m (axes d) - ax_p (axes d) - 1) (ax_p (axes d)) (u d) (ax_U (axes d)) = Some k /\ pr_ID E r u d = k /\
      (let U := ax_U (axes d) in let p := ax_p (axes d) in let m := ax_m (axes d) in
       p <= k <= m - p - 1 /\ (U k < U (k + 1)%Z)%R /\ (U k <= u d)%R /\ ((u d < U (k + 1)%Z)%R \/ (k = m - p - 1 /\ u d = U (m - p)%Z)))).
    { intros r d Hr Hd. destruct (setup_wf _ _ _ _ _ _ _ _ HS d Hd) as (l & (_ & (Hp & Hm & _) & _) & (He1 & He2)).
      destruct (Hu d Hd) as [Hu1 Hu2].
      set (U := ax_U (axes d)) in *. set (p := ax_p (axes d)) in *. set (m := ax_m (axes d)) in *.
      destruct (C29_find_span_correct Rord (m-p-1) p (u d) U) as (k & K1 & K2 & K3 & K4 & K5 & K6); try lia.
      - exact He1.
      - replace (m - p - 1 + 1) with (m - p) by lia. exact He2.
      - apply kle_R. exact Hu1.
      - replace (m - p - 1 + 1) with (m - p) by lia. apply kle_R. exact Hu2.
      - exists k. split; [exact K1|]. split.
        + unfold pr_ID. rewrite Edim, Eaxes, Egeom by auto. replace (d <? dim) with true by lia.
          pose proof (setup_node_facts _ _ _ _ _ _ _ _ HS r d Hr ltac:(pose proof dim_bounds; lia)) as F.
          destruct F as (_ & _ & _ & _ & _ & _ & F & _). rewrite F. unfold geom_size. replace (d <? dim) with true by lia.
          fold U p m. rewrite K1. reflexivity.
        + cbv zeta. split; [exact K2|]. split; [apply klt_R; exact K3|]. split; [apply kle_R; exact K4|].
          destruct K6 as [K6|[K6 K7]]; [left; apply klt_R; exact K6|right]. split; [exact K6|]. apply keq_R in K7. rewrite K7. f_equal. lia. }
    assert (H0 : 0 <= 0 < size) by (destruct HS as (_ & _ & Q & _); lia).
    split; [|split].
    - intros d Hd. destruct (K 0 d H0 Hd) as (k & _ & -> & K2). exact K2.
    - intros d Hd. unfold pr_ID. rewrite Edim. replace (d <? dim) with false by lia. reflexivity.
    - intros r i Hr Hi. destruct (Z_lt_dec i dim) as [L|G].
      + destruct (K 0 i H0 ltac:(lia)) as (k & F1 & -> & _). destruct (K r i Hr ltac:(lia)) as (k' & F2 & -> & _). congruence.
      + unfold pr_ID. rewrite Edim. replace (i <? dim) with false by lia. reflexivity.
  Qed.

  (** On process: all active functions are in the ghosted range. *)
  Lemma on_process r id : 0 <= r < size -> (forall d, dim <= d < 3 -> id d = 0) ->
    (pr_off E r id = false <-> forall a, In a (box zero3 (fun i => pr_p E i + 1)) ->
       in_box (fun d => r_gstart (ly_geom (LY r) d)) (fun d => r_gwidth (ly_geom (LY r) d)) (tadd (fun d => id d - pr_p E d) a)).
  Proof using HS Edim Eaxes Egeom.
    intros Hr Hid. unfold pr_off. rewrite Edim, (Egeom r Hr). pose proof dim_bounds as HD.
    assert (Hp : forall d, 0 <= d < 3 -> 0 <= pr_p E d).
    { intros d Hd. rewrite pr_p_eq. destruct (d <? dim) eqn:L; [|lia]. destruct (setup_wf _ _ _ _ _ _ _ _ HS d ltac:(lia)) as (l & (_ & (Hp & _) & _) & _). lia. }
    assert (Hout : forall d, dim <= d < 3 -> r_gstart (ly_geom (LY r) d) = 0 /\ r_gwidth (ly_geom (LY r) d) = 1 /\ pr_p E d = 0).
    { intros d Hd. destruct (setup_form _ _ _ _ _ _ _ _ HS) as (n & _ & _ & _ & _ & _ & HLY). rewrite (HLY r Hr). unfold layout_of; cbn [ly_geom].
      replace (d <? dim) with false by lia. rewrite pr_p_eq. replace (d <? dim) with false by lia. auto. }
    split.
    - intros H a Ha. apply In_box in Ha. destruct a as [[i j] k].
      assert (K : forall d x, 0 <= d < 3 -> 0 <= x < pr_p E d + 1 ->
        r_gstart (ly_geom (LY r) d) <= id d - pr_p E d + x < r_gstart (ly_geom (LY r) d) + r_gwidth (ly_geom (LY r) d)).
      { intros d x Hd Hx. destruct (Z_lt_dec d dim) as [L|G].
        - assert (B : existsb (fun i => (id i - pr_p E i <? r_gstart (ly_geom (LY r) i)) || (r_gstart (ly_geom (LY r) i) + r_gwidth (ly_geom (LY r) i) <=? id i - pr_p E i + pr_p E i)) [d] = false).
          { cbn [existsb]. rewrite orb_false_r. destruct ((id d - pr_p E d <? _) || _) eqn:Q; auto. exfalso.
            assert (T : existsb (fun i => (id i - pr_p E i <? r_gstart (ly_geom (LY r) i)) || (r_gstart (ly_geom (LY r) i) + r_gwidth (ly_geom (LY r) i) <=? id i - pr_p E i + pr_p E i)) (zseq 0 dim) = true).
            { apply existsb_exists. exists d. split; [apply in_zseq; lia|exact Q]. }
            rewrite H in T. discriminate. }
          cbn [existsb] in B. lia.
        - destruct (Hout d ltac:(lia)) as (-> & -> & Q). rewrite Q in Hx |- *. rewrite (Hid d) by lia. lia. }
      unfold in_box, zero3 in Ha. unfold tadd, in_box. destruct Ha as (A0 & A1 & A2).
      split; [apply K; lia|]. split; apply K; lia.
    - intros H. apply Bool.not_true_is_false. intros T. apply existsb_exists in T. destruct T as (d & Hd & Q). apply in_zseq in Hd.
      pose proof (H (0, 0, 0)) as L0. pose proof (H (pr_p E 0, pr_p E 1, pr_p E 2)) as L1.
      pose proof (Hp 0 ltac:(lia)). pose proof (Hp 1 ltac:(lia)). pose proof (Hp 2 ltac:(lia)).
      assert (I0 : In (0, 0, 0) (box zero3 (fun i => pr_p E i + 1))) by (apply In_box; unfold in_box, zero3; lia).
      assert (I1 : In (pr_p E 0, pr_p E 1, pr_p E 2) (box zero3 (fun i => pr_p E i + 1))) by (apply In_box; unfold in_box, zero3; lia).
      specialize (L0 I0). specialize (L1 I1). unfold tadd, in_box in L0, L1.
      assert (C : d = 0 \/ d = 1 \/ d = 2) by lia. destruct C as [-> | [-> | ->]]; lia.
  Qed.

  (** Some rank holds the point. *)
  Lemma some_owner k : spans_of dim axes u k -> (forall d, dim <= d -> k d = 0) ->
    exists r, 0 <= r < size /\ pr_off E r k = false.
  Proof using HS Edim Eaxes Egeom.
    intros Hk Hk0. pose proof dim_bounds as HD.
    assert (He : forall d, exists e, (0 <= d < dim -> 0 <= e < ax_nel (axes d) /\ span_at (axes d) e = k d) /\ (~ 0 <= d < dim -> e = 0)).
    { intros d. destruct (Z_le_dec 0 d) as [A|A]; [|exists 0; lia]. destruct (Z_lt_dec d dim) as [B|B]; [|exists 0; lia].
      destruct (setup_wf _ _ _ _ _ _ _ _ HS d ltac:(lia)) as (l & L & _). destruct (Hk d ltac:(lia)) as (K1 & K2 & _).
      destruct (span_at_surj (axes d) l L (k d)) as (e & He & Hs); [split; [exact K1|apply klt_R; exact K2]|]. exists e. split; [intros _; split; assumption|lia]. }
    destruct (He 0) as (e0 & A0 & B0). destruct (He 1) as (e1 & A1 & B1). destruct (He 2) as (e2 & A2 & B2).
    pose proof (setup_elem_tile _ _ _ _ _ _ _ _ HS) as (_ & T).
    destruct (T (e0, e1, e2)) as (r & [Hr Hb] & _).
    { unfold in_box, zero3, elem_size. split; [|split].
      - destruct (0 <? dim) eqn:Q; [destruct A0; lia|lia].
      - destruct (1 <? dim) eqn:Q; [destruct A1; lia|]. rewrite B1 by lia. lia.
      - destruct (2 <? dim) eqn:Q; [destruct A2; lia|]. rewrite B2 by lia. lia. }
    exists r. split; [exact Hr|]. apply on_process; [exact Hr|intros; apply Hk0; lia|]. intros a Ha.
    pose proof (setup_cover Rord g2 g3 maxint size dim axes user LY 1 HS r (e0, e1, e2) a Hr) as C.
    assert (Ha' : In a (box zero3 (basis_nen dim axes))).
    { apply In_box. apply In_box in Ha. destruct a as [[i j] l]. unfold in_box, zero3, basis_nen in *. rewrite !pr_p_eq in Ha.
      destruct (0 <? dim), (1 <? dim), (2 <? dim); lia. }
    specialize (C ltac:(apply In_box; exact Hb) Ha'). cbn [grid_of gr_gstart gr_gwidth] in C.
    assert (Off : forall d, 0 <= d < 3 -> elem_off dim axes (e0, e1, e2) d = k d - pr_p E d).
    { intros d Hd. rewrite elem_off_coord by auto. unfold basis_offset. rewrite pr_p_eq. destruct (d <? dim) eqn:Q; [|rewrite Hk0 by lia; lia].
      f_equal. assert (C' : d = 0 \/ d = 1 \/ d = 2) by lia.
      destruct C' as [-> | [-> | ->]]; cbn [coord]; [change (0 =? 0) with true|change (1 =? 0) with false; change (1 =? 1) with true|change (2 =? 0) with false; change (2 =? 1) with false]; cbv iota; [apply A0|apply A1|apply A2]; lia. }
    destruct a as [[i j] l]. unfold tadd in *. rewrite <- !Off by lia. unfold in_box in *.
    assert (G : forall d, 0 <= d < 3 -> r_gstart (ly_geom (LY r) d) = r_gstart (ly_node (LY r) d) /\ r_gwidth (ly_geom (LY r) d) = r_gwidth (ly_node (LY r) d)).
    { intros d Hd. destruct (setup_node_facts _ _ _ _ _ _ _ _ HS r d Hr Hd) as (_ & _ & _ & _ & _ & _ & _ & G1 & G2 & _). auto. }
    destruct (G 0 ltac:(lia)) as [-> ->]. destruct (G 1 ltac:(lia)) as [-> ->]. destruct (G 2 ltac:(lia)) as [-> ->]. exact C.
  Qed.

  (** Number a of the active functions, and its place in map[]. *)
  Lemma active_box k a : (forall d, dim <= d -> k d = 0) -> 1 <= a <= pr_nen E ->
    exists t, In t (box zero3 (fun i => pr_p E i + 1)) /\ lin (fun i => pr_p E i + 1) t = a - 1 /\
      active_node dim axes k a = tadd (fun d => k d - pr_p E d) t.
  Proof using HS Edim Eaxes Egeom.
    intros Hk0 Ha. set (N := fun i => pr_p E i + 1).
    assert (Hp : forall d, 0 <= d < 3 -> 1 <= N d).
    { intros d Hd. unfold N. rewrite pr_p_eq. destruct (d <? dim) eqn:L; [|lia]. destruct (setup_wf _ _ _ _ _ _ _ _ HS d ltac:(lia)) as (l & (_ & (Hp & _) & _) & _). lia. }
    exists (unlin N (a-1)).
    assert (HV : 0 <= a - 1 < vol N) by (unfold vol, N; unfold pr_nen in Ha; lia).
    destruct (lin_unlin N (a-1)) as [L2 L1]; try (apply (Z.lt_le_trans _ 1); [lia|apply Hp; lia]); auto.
    split; [apply In_box; exact L1|]. split; [exact L2|].
    unfold active_node, unlin, tadd. rewrite <- !pr_p_eq. change (0 =? 0) with true. change (1 =? 0) with false. change (1 =? 1) with true.
    change (2 =? 0) with false. change (2 =? 1) with false. cbv iota. fold (N 0) (N 1).
    assert (Z0 : forall d, 0 <= d < 3 -> (if d <? dim then k d - pr_p E d else 0) = k d - pr_p E d).
    { intros d Hd. destruct (d <? dim) eqn:Q; auto. rewrite Hk0 by lia. rewrite pr_p_eq, Q. lia. }
    rewrite !Z0 by lia. rewrite <- (Z.div_div (a-1) (N 0) (N 1)) by (pose proof (Hp 0 ltac:(lia)); pose proof (Hp 1 ltac:(lia)); lia). reflexivity.
  Qed.
End Locate.
