(** C53: sampling of fields for visualisation. *)
From Coq Require Import ZArith List Bool Lia Reals Lra Psatz.
From Coq Require Import ZifyBool ZifyNat.
From Verif Require IOProofs.
From Verif Require Import Prelude RealOrd AxisModel AxisSpec AxisProofs AxisInitModel AxisInitSpec AxisProofs2 PartModel PartSpec PartProofs SetupModel SetupProofs SetupProps CollocProofs
  GridModel GridSpec GridProofs GridProofs2 GridSetup GridProps ElemModel ElemSpec ElemProofs AsmProofs ElemProps
  MapModel AxisProps RuleProps ProbeModel ProbeSpec ProbeProofs2 ProbeProofs3 ProbeProps ProbeProps2 DrawModel DrawProofs Box.
Import ListNotations.
Open Scope Z_scope.

Lemma strides_pad n d : 0 <= d < Z.of_nat (length n) -> Z.of_nat (length n) <= 3 ->
  (if d =? 0 then 1 else if d =? 1 then pad 1 n 0 else pad 1 n 0 * pad 1 n 1) = strides n (Z.to_nat d).
Proof.
  intros Hd Hn. unfold pad. assert (C : d = 0 \/ d = 1 \/ d = 2) by lia. destruct C as [-> | [-> | ->]].
  - destruct n; reflexivity.
  - destruct n as [|a n]; [cbn in Hd; lia|]. change (a = a * strides n 0). destruct n; cbn [strides]; lia.
  - destruct n as [|a [|b n]]; [cbn in Hd; lia|cbn in Hd; lia|]. change (a * b = a * (b * strides n 0)). destruct n; cbn [strides]; lia.
Qed.

Section Grid.
  Variables (g2 : Z -> Z -> Z -> Z) (g3 : Z -> Z -> Z -> Z -> Z) (maxint size dim : Z) (axes : Z -> axis Rord) (user : list Z)
            (LY : Z -> layout).
  Hypothesis HS : setup_ok g2 g3 maxint size dim axes user LY.
  Variable E : penv.
  Hypothesis HE : probe_of size dim axes LY E.
  Variable res : Z -> Z.
  Hypothesis Hres : forall d, 0 <= d < dim -> 1 <= res d.

  Lemma dr_dim : 1 <= dim <= 3.
  Proof using HS. exact (dim_bounds g2 g3 maxint size dim axes user LY HS). Qed.

  (** The box of a rank. *)
  Lemma dr_box r d : 0 <= r < size -> 0 <= d < dim ->
    1 <= ly_procs (LY r) d <= ax_nel (axes d) /\ 0 <= ly_coord (LY r) d < ly_procs (LY r) d /\ ly_elem_size (LY 0) d = ax_nel (axes d) /\
    ly_elem_start (LY r) d = dist_s (ly_procs (LY r) d) (ax_nel (axes d)) (ly_coord (LY r) d) /\
    ly_elem_width (LY r) d = dist_n (ly_procs (LY r) d) (ax_nel (axes d)) (ly_coord (LY r) d) /\
    draw_width E LY res r d = dw (ly_procs (LY r) d) (ax_nel (axes d)) (res d) (ly_coord (LY r) d) /\
    draw_start E LY res r d = dist_s (ly_procs (LY r) d) (ax_nel (axes d)) (ly_coord (LY r) d) * res d.
  Proof using HS HE Hres.
    intros Hr Hd. pose proof HE as (Edim & _). pose proof dr_dim as DB.
    destruct (setup_form _ _ _ _ _ _ _ _ HS) as (n & Hn & HL & _ & Hz & HP & HLY).
    assert (Q : forall r', 0 <= r' < size -> ly_procs (LY r') = pad 1 n /\ ly_coord (LY r') = pad 0 (rank_coords n r') /\
      ly_elem_size (LY r') d = ax_nel (axes d) /\
      ly_elem_start (LY r') d = dist_s (pad 1 n d) (ax_nel (axes d)) (pad 0 (rank_coords n r') d) /\
      ly_elem_width (LY r') d = dist_n (pad 1 n d) (ax_nel (axes d)) (pad 0 (rank_coords n r') d)).
    { intros r' Hr'. rewrite (HLY r' Hr'). unfold layout_of. cbn [ly_procs ly_coord ly_elem_size ly_elem_start ly_elem_width].
      replace (d <? dim) with true by lia. repeat split; reflexivity. }
    destruct (Q r Hr) as (Q1 & Q2 & _ & Q4 & Q5). destruct (Q 0 ltac:(lia)) as (_ & _ & Q3 & _).
    pose proof (HP d Hd) as HPd. pose proof (pad_coords n r d Hn ltac:(lia) ltac:(lia)) as HC.
    assert (WD : forall r', 0 <= r' < size -> draw_width E LY res r' d = dw (pad 1 n d) (ax_nel (axes d)) (res d) (pad 0 (rank_coords n r') d)).
    { intros r' Hr'. destruct (Q r' Hr') as (W1 & W2 & W3 & W4 & W5). unfold draw_width. rewrite Edim, W1, W2, W5. replace (d <? dim) with true by lia. reflexivity. }
    rewrite Q1, Q2. split; [exact HPd|]. split; [exact HC|]. split; [exact Q3|]. split; [exact Q4|]. split; [exact Q5|]. split; [apply WD; exact Hr|].
    unfold draw_start. rewrite Edim. replace (d <? dim) with true by lia. rewrite Q2.
    replace (draw_ranges E LY res r d) with (map (dw (pad 1 n d) (ax_nel (axes d)) (res d)) (zseq 0 (pad 1 n d))).
    { apply sum_prefix; [exact HPd|apply Hres; exact Hd|exact HC]. }
    unfold draw_ranges. rewrite Q1. apply map_ext_in. intros c Hc. apply in_zseq in Hc.
    assert (LR : 0 <= line_rank LY r d c < size /\ pad 0 (rank_coords n (line_rank LY r d c)) d = c).
    { pose proof (line_coords n (Z.to_nat d) r c Hn ltac:(lia) ltac:(lia)) as LC. cbv zeta in LC.
      assert (HS' : (if d =? 0 then 1 else if d =? 1 then ly_procs (LY r) 0 else ly_procs (LY r) 0 * ly_procs (LY r) 1) = strides n (Z.to_nat d)).
      { rewrite Q1. apply strides_pad; lia. }
      unfold line_rank. rewrite HS', Q2. rewrite <- Hz. apply LC. unfold pad in Hc |- *. lia. }
    destruct LR as [L1 L2]. rewrite (WD _ L1), L2. reflexivity.
  Qed.

  (** The element of a draw point. *)
  Lemma dr_elem r t : 0 <= r < size -> in_box (draw_start E LY res r) (draw_width E LY res r) t ->
    exists e, forall d, 0 <= d < dim ->
      ly_elem_start (LY r) d <= e d < ly_elem_start (LY r) d + ly_elem_width (LY r) d /\ 0 <= e d < ax_nel (axes d) /\
      ((coord t d / res d = e d /\ e d <> ax_nel (axes d) /\ 0 <= coord t d mod res d < res d) \/ (coord t d / res d = ax_nel (axes d) /\ e d = ax_nel (axes d) - 1)).
  Proof using HS HE Hres.
    intros Hr Ht. pose proof dr_dim as DB.
    assert (A : forall d, 0 <= d < dim -> exists e, ly_elem_start (LY r) d <= e < ly_elem_start (LY r) d + ly_elem_width (LY r) d /\ 0 <= e < ax_nel (axes d) /\
      ((coord t d / res d = e /\ e <> ax_nel (axes d) /\ 0 <= coord t d mod res d < res d) \/ (coord t d / res d = ax_nel (axes d) /\ e = ax_nel (axes d) - 1))).
    { intros d Hd. destruct (dr_box r d Hr Hd) as (B1 & B2 & B3 & B4 & B5 & B6 & B7).
      assert (Hx : draw_start E LY res r d <= coord t d < draw_start E LY res r d + draw_width E LY res r d).
      { destruct t as [[i j] k]. unfold in_box in Ht. assert (C : d = 0 \/ d = 1 \/ d = 2) by lia. destruct C as [-> | [-> | ->]]; unfold coord; cbn -[Z.add]; tauto. }
      rewrite B6, B7 in Hx. destruct (local_elem _ _ _ B1 (Hres d Hd) _ _ B2 Hx) as (e & E1 & E2 & E3).
      exists e. rewrite B4, B5. split; [exact E1|]. split; [exact E2|]. tauto. }
    assert (A' : forall d, exists e, 0 <= d < dim -> ly_elem_start (LY r) d <= e < ly_elem_start (LY r) d + ly_elem_width (LY r) d /\ 0 <= e < ax_nel (axes d) /\
      ((coord t d / res d = e /\ e <> ax_nel (axes d) /\ 0 <= coord t d mod res d < res d) \/ (coord t d / res d = ax_nel (axes d) /\ e = ax_nel (axes d) - 1))).
    { intros d. destruct (Z_le_dec 0 d) as [L|L]; [|exists 0; intros [X _]; contradiction]. destruct (Z_lt_dec d dim) as [L'|L']; [|exists 0; intros [_ X]; contradiction].
      destruct (A d (conj L L')) as (e & H). exists e. intros _. exact H. }
    destruct (A' 0) as (e0 & H0). destruct (A' 1) as (e1 & H1). destruct (A' 2) as (e2 & H2). clear A A'.
    exists (fun d => if d =? 0 then e0 else if d =? 1 then e1 else e2). intros d Hd.
    assert (C : d = 0 \/ d = 1 \/ d = 2) by (clear - Hd DB; lia). destruct C as [-> | [-> | ->]].
    - exact (H0 Hd).
    - exact (H1 Hd).
    - exact (H2 Hd).
  Qed.

  Lemma dr_point t d : 0 <= d < dim -> draw_point E res t d = lagrange_point (coord t d) (res d) (axes d).
  Proof using HE. pose proof HE as (Edim & Eaxes & _). intros Hd. unfold draw_point. rewrite Edim, Eaxes. replace (d <? dim) with true; [reflexivity|]. symmetry. apply Z.ltb_lt. apply Hd. Qed.

  Lemma dr_spans t e : (forall d, 0 <= d < dim -> 0 <= e d < ax_nel (axes d) /\
      ((coord t d / res d = e d /\ e d <> ax_nel (axes d) /\ 0 <= coord t d mod res d < res d) \/ (coord t d / res d = ax_nel (axes d) /\ e d = ax_nel (axes d) - 1))) ->
    in_domain dim axes (draw_point E res t) /\ spans_of dim axes (draw_point E res t) (fun d => span_at (axes d) (e d)).
  Proof using HS HE Hres.
    intros He.
    assert (K : spans_of dim axes (draw_point E res t) (fun d => span_at (axes d) (e d))).
    { intros d Hd. destruct (setup_wf _ _ _ _ _ _ _ _ HS d Hd) as (l & Hwf & Hen). destruct (He d Hd) as (H1 & H2).
      rewrite (dr_point t d Hd). exact (lagrange_span (axes d) l (coord t d) (res d) (e d) Hwf Hen (Hres d Hd) H1 H2). }
    split; [|exact K]. intros d Hd. destruct (K d Hd) as (K1 & K2 & K3 & K4).
    destruct (setup_wf _ _ _ _ _ _ _ _ HS d Hd) as (l & (_ & (Hp & Hm & HN & _) & _) & _).
    assert (HR : forall i j, 0 <= i -> i <= j -> j <= ax_m (axes d) -> (ax_U (axes d) i <= ax_U (axes d) j)%R) by (intros i j A B C; apply kle_R; apply HN; auto).
    pose proof (HR (ax_p (axes d)) (span_at (axes d) (e d)) ltac:(lia) ltac:(lia) ltac:(lia)).
    pose proof (HR (span_at (axes d) (e d) + 1) (ax_m (axes d) - ax_p (axes d)) ltac:(lia) ltac:(lia) ltac:(lia)).
    split; [lra|]. destruct K4 as [K4|[_ K4]]; lra.
  Qed.

  (** A process holds the points of its box. *)
  Lemma dr_on_process r t q : 0 <= r < size -> in_box (draw_start E LY res r) (draw_width E LY res r) t ->
    in_domain dim axes (draw_point E res t) /\ pb_off (locate E r (draw_point E res t) q) = false.
  Proof using HS HE Hres.
    intros Hr Ht. destruct (dr_elem r t Hr Ht) as (e & He). pose proof HE as (Edim & Eaxes & Egeom). pose proof dr_dim as DB.
    destruct (dr_spans t e ltac:(intros d Hd; destruct (He d Hd) as (_ & H1 & H2); auto)) as [Hu K]. split; [exact Hu|].
    destruct (located g2 g3 maxint size dim axes user LY HS E Edim Eaxes Egeom (draw_point E res t) Hu) as (k & K1 & K2 & K3).
    change (pb_off (locate E r (draw_point E res t) q)) with (pr_off E r (pb_ID (locate E r (draw_point E res t) q))).
    assert (ID : forall d, 0 <= d < 3 -> pb_ID (locate E r (draw_point E res t) q) d = k d).
    { intros d Hd. unfold locate. cbn [pb_set_loc pb_ID]. rewrite <- (K3 r d Hr Hd). apply (pr_ID_ext dim E Edim). intros d' Hd'. rewrite Edim. replace (d' <? dim) with true by lia. reflexivity. }
    assert (EK : forall d, 0 <= d < dim -> k d = span_at (axes d) (e d)).
    { intros d Hd. specialize (K1 d Hd). specialize (K d Hd). cbv zeta in K, K1.
      destruct (setup_wf _ _ _ _ _ _ _ _ HS d Hd) as (l & (_ & (Hp & Hm & HN & _) & _) & _).
      assert (HR : forall i j, 0 <= i -> i <= j -> j <= ax_m (axes d) -> (ax_U (axes d) i <= ax_U (axes d) j)%R) by (intros i j A B C; apply kle_R; apply HN; auto).
      set (k2 := span_at (axes d) (e d)) in *. clearbody k2. set (x := draw_point E res t d) in *. clearbody x. set (k1 := k d) in *. clearbody k1.
      set (U := ax_U (axes d)) in *. set (p := ax_p (axes d)) in *. set (m := ax_m (axes d)) in *.
      destruct K as (A1 & A2 & A3 & A4). destruct K1 as (B1 & B2 & B3 & B4).
      assert (F : forall i j, p <= i <= m-p-1 -> p <= j <= m-p-1 -> (U j <= x)%R -> ((x < U (i+1)%Z)%R \/ (i = m-p-1 /\ x = U (m-p)%Z)) -> ~ i < j).
      { intros i j Hi Hj Hjx Hix L. destruct Hix as [Hix|[Hix _]]; [|lia]. pose proof (HR (i+1) j ltac:(lia) ltac:(lia) ltac:(lia)). fold U in H. lra. }
      pose proof (F k1 k2 B1 A1 A3 B4). pose proof (F k2 k1 A1 B1 B3 A4). lia. }
    apply (on_process g2 g3 maxint size dim axes user LY HS E Edim Eaxes Egeom); [exact Hr|intros d Hd; rewrite ID by lia; apply K2; lia|]. intros a Ha.
    set (e' := fun d => if d <? dim then e d else 0).
    pose proof (setup_cover Rord g2 g3 maxint size dim axes user LY 1 HS r (e' 0, e' 1, e' 2) a Hr) as C.
    assert (Ha' : In a (box zero3 (basis_nen dim axes))).
    { apply In_box. apply In_box in Ha. destruct a as [[i j] l]. unfold in_box, zero3, basis_nen in *. rewrite !(pr_p_eq dim axes E Edim Eaxes) in Ha.
      destruct (0 <? dim), (1 <? dim), (2 <? dim); lia. }
    assert (Hb : In (e' 0, e' 1, e' 2) (box (ly_elem_start (LY r)) (ly_elem_width (LY r)))).
    { apply In_box. unfold in_box.
      assert (G : forall d, 0 <= d < 3 -> ly_elem_start (LY r) d <= e' d < ly_elem_start (LY r) d + ly_elem_width (LY r) d).
      { intros d Hd. unfold e'. destruct (d <? dim) eqn:Q; [apply He; lia|].
        destruct (setup_form _ _ _ _ _ _ _ _ HS) as (n & _ & _ & _ & _ & _ & HLY). rewrite (HLY r Hr). unfold layout_of; cbn [ly_elem_start ly_elem_width]. rewrite Q. lia. }
      split; [apply G; lia|]. split; apply G; lia. }
    specialize (C Hb Ha'). cbn [grid_of gr_gstart gr_gwidth] in C.
    assert (Off : forall d, 0 <= d < 3 -> elem_off dim axes (e' 0, e' 1, e' 2) d = pb_ID (locate E r (draw_point E res t) q) d - pr_p E d).
    { intros d Hd. rewrite elem_off_coord by auto. rewrite (ID d Hd). unfold basis_offset. rewrite (pr_p_eq dim axes E Edim Eaxes). destruct (d <? dim) eqn:Q; [|rewrite K2 by lia; lia].
      rewrite (EK d ltac:(lia)). f_equal. f_equal. assert (C' : d = 0 \/ d = 1 \/ d = 2) by lia.
      destruct C' as [-> | [-> | ->]]; cbn [coord]; [change (0 =? 0) with true|change (1 =? 0) with false; change (1 =? 1) with true|change (2 =? 0) with false; change (2 =? 1) with false]; cbv iota; unfold e'; rewrite Q; reflexivity. }
    destruct a as [[i j] l]. unfold tadd in *. rewrite <- !Off by lia. unfold in_box in *.
    assert (G : forall d, 0 <= d < 3 -> r_gstart (ly_geom (LY r) d) = r_gstart (ly_node (LY r) d) /\ r_gwidth (ly_geom (LY r) d) = r_gwidth (ly_node (LY r) d)).
    { intros d Hd. destruct (setup_node_facts _ _ _ _ _ _ _ _ HS r d Hr Hd) as (_ & _ & _ & _ & _ & _ & _ & G1 & G2 & _). auto. }
    destruct (G 0 ltac:(lia)) as [-> ->]. destruct (G 1 ltac:(lia)) as [-> ->]. destruct (G 2 ltac:(lia)) as [-> ->]. exact C.
  Qed.
End Grid.

(** C53: the boxes of the processes tile the grid of draw points; the points of direction d run from the first to the
    last knot of the domain, in increasing order, with [res d] equal steps in each element; IGADrawVec recovers the
    resolution; and every process finds on itself all points of its box. *)
Theorem C53_draw_grid :
  forall g2 g3 maxint size dim (axes : Z -> axis Rord) user LY E res0,
  setup_ok g2 g3 maxint size dim axes user LY -> probe_of size dim axes LY E ->
  let res := draw_resolution dim axes res0 in
  boxes_tile size (draw_sizes E LY res) (draw_start E LY res) (draw_width E LY res) /\
  (forall d, 0 <= d < dim -> recovered_resolution E LY res d = res d) /\
  (forall d, 0 <= d < dim -> let x := fun i => lagrange_point i (res d) (axes d) in
     draw_sizes E LY res d = ax_nel (axes d) * res d + 1 /\
     x 0 = ax_U (axes d) (ax_p (axes d)) /\ x (ax_nel (axes d) * res d) = ax_U (axes d) (ax_m (axes d) - ax_p (axes d)) /\
     (forall e i, 0 <= e < ax_nel (axes d) -> 0 <= i < res d ->
        let k := span_at (axes d) e in
        (x (e * res d + i + 1)%Z - x (e * res d + i)%Z = (ax_U (axes d) (k+1)%Z - ax_U (axes d) k) / IZR (res d))%R /\
        x (e * res d) = ax_U (axes d) k /\ (x (e * res d + i)%Z < x (e * res d + i + 1)%Z)%R)) /\
  (forall r t q, 0 <= r < size -> in_box (draw_start E LY res r) (draw_width E LY res r) t ->
     in_domain dim axes (draw_point E res t) /\ pb_off (set_point_self E r (draw_point E res t) q) = false).
Proof.
  intros g2 g3 maxint size dim axes user LY E res0 HS HE res. pose proof HE as (Edim & Eaxes & Egeom).
  pose proof (dr_dim _ _ _ _ _ _ _ _ HS) as DB.
  assert (Hres : forall d, 0 <= d < dim -> 1 <= res d) by (intros d Hd; unfold res, draw_resolution; replace (d <? dim) with true by lia; lia).
  assert (H0 : 0 <= 0 < size) by (destruct HS as (_ & _ & Q & _); lia).
  pose proof (dr_box _ _ _ _ _ _ _ _ HS E HE res Hres) as BX.
  split; [|split; [|split]].
  - set (rg := fun (ly : layout) d => if d <? dim then (ly_elem_start ly d * res d, ly_elem_width ly d * res d + (if ly_coord ly d =? ly_procs ly d - 1 then 1 else 0)) else (0, 1)).
    pose proof (setup_boxes g2 g3 maxint size dim axes user LY HS rg (fun d => if d <? dim then ax_nel (axes d) * res d + 1 else 1)
      (fun i P c => dist_s P (ax_nel (axes i)) c * res i) (fun i P c => dw P (ax_nel (axes i)) (res i) c)) as T.
    destruct T as [T1 T2].
    + intros n c i Hi. unfold rg. replace (i <? dim) with true by lia. unfold layout_of; cbn [ly_elem_start ly_elem_width ly_coord ly_procs]. replace (i <? dim) with true by lia. reflexivity.
    + intros i P Hi HP. replace (i <? dim) with true by lia. apply draw_tiles; [exact HP|apply Hres; exact Hi].
    + intros n c i Hi. unfold rg. replace (i <? dim) with false by lia. reflexivity.
    + intros i Hi. replace (i <? dim) with false by lia. reflexivity.
    + assert (ES : forall d, draw_sizes E LY res d = if d <? dim then ax_nel (axes d) * res d + 1 else 1).
      { intros d. unfold draw_sizes. rewrite Edim. destruct (d <? dim) eqn:Q; [|reflexivity].
        destruct (setup_form _ _ _ _ _ _ _ _ HS) as (n & _ & _ & _ & _ & _ & HLY). rewrite (HLY 0 H0). unfold layout_of; cbn [ly_elem_size]. rewrite Q. reflexivity. }
      assert (EB : forall r d, 0 <= r < size -> 0 <= d < 3 -> draw_start E LY res r d = fst (rg (LY r) d) /\ draw_width E LY res r d = snd (rg (LY r) d)).
      { intros r d Hr Hd. unfold rg. destruct (d <? dim) eqn:Q.
        - destruct (BX r d Hr ltac:(lia)) as (B1 & B2 & B3 & B4 & B5 & B6 & B7). cbn [fst snd]. rewrite B6, B7, B4, B5. split; reflexivity.
        - unfold draw_start, draw_width. rewrite Edim, Q. split; reflexivity. }
      assert (EI : forall r t, 0 <= r < size -> (in_box (draw_start E LY res r) (draw_width E LY res r) t <-> in_box (fun d => fst (rg (LY r) d)) (fun d => snd (rg (LY r) d)) t)).
      { intros r [[i j] k] Hr. unfold in_box. destruct (EB r 0 Hr ltac:(lia)) as [-> ->]. destruct (EB r 1 Hr ltac:(lia)) as [-> ->]. destruct (EB r 2 Hr ltac:(lia)) as [-> ->]. reflexivity. }
      split.
      * intros r Hr d Hd. destruct (EB r d Hr Hd) as [-> ->]. rewrite ES. exact (T1 r Hr d Hd).
      * intros [[i j] k] Ht. destruct (T2 (i, j, k)) as (r & [Hr Hb] & Hu); [unfold in_box in *; rewrite !ES in Ht; exact Ht|].
        exists r. split; [split; [exact Hr|apply EI; assumption]|]. intros r' [Hr' Hb']. apply Hu. split; [exact Hr'|apply EI; assumption].
  - intros d Hd. unfold recovered_resolution, draw_sizes. rewrite Edim. replace (d <? dim) with true by lia.
    destruct (BX 0 d H0 Hd) as (B1 & _ & B3 & _). rewrite B3. replace (ax_nel (axes d) * res d + 1 - 1) with (res d * ax_nel (axes d)) by lia. apply Z.div_mul. lia.
  - intros d Hd. cbv zeta. destruct (setup_wf _ _ _ _ _ _ _ _ HS d Hd) as (l & Hwf & Hen). pose proof (wf_ends _ l Hwf Hen) as (W1 & W2 & W3).
    destruct (BX 0 d H0 Hd) as (_ & _ & B3 & _). specialize (Hres d Hd).
    assert (DS : draw_sizes E LY res d = ax_nel (axes d) * res d + 1) by (unfold draw_sizes; rewrite Edim; replace (d <? dim) with true by lia; rewrite B3; reflexivity).
    set (s := res d) in *. clearbody s. set (a := axes d) in *.
    assert (Hp : ax_p a =? 0 = false) by (destruct Hwf as (_ & (Hp & _) & _); lia).
    assert (Hs : (0 < IZR s)%R) by (apply IZR_lt; lia).
    (* the value at i steps into element e, also for i = s *)
    assert (V : forall e i, 0 <= e < ax_nel a -> 0 <= i <= s -> lagrange_point (e * s + i) s a =
      (ax_U a (span_at a e) + IZR i / IZR s * (ax_U a (span_at a e + 1)%Z - ax_U a (span_at a e)))%R).
    { intros e i He Hi. unfold lagrange_point. rewrite Hp. destruct (Z.eq_dec i s) as [->|Ni].
      - replace (e * s + s) with ((e+1) * s) by lia. rewrite Z.div_mul, Z.mod_mul by lia.
        assert (H1 : (IZR s / IZR s = 1)%R) by (field; lra). rewrite H1.
        destruct (e + 1 =? ax_nel a) eqn:Q; [replace (e+1-1) with e by lia; rewrite H1; reflexivity|].
        assert (HU : (ax_U a (span_at a (e+1)) = ax_U a (span_at a e + 1)%Z)%R).
        { destruct Hwf as (Hsp & HV & HL & Hn & _). destruct (C02_elements_cover_the_domain Rord _ _ _ l HV HL) as [CC _].
          specialize (CC (Z.to_nat e) 0 ltac:(lia)). apply keq_R in CC. unfold span_at. rewrite Hsp. replace (Z.to_nat (e+1)) with (S (Z.to_nat e)) by lia. symmetry. exact CC. }
        match goal with |- @eq _ ?x ?y => change (@eq R x y) end. rewrite HU. unfold Rdiv. ring.
      - rewrite Z.div_add_l, (Z.div_small i), Z.add_0_r by lia. rewrite (Z.add_comm _ i), Z.mod_add, Z.mod_small by lia.
        replace (e =? ax_nel a) with false by lia. reflexivity. }
    split; [exact DS|]. split; [|split].
    + replace 0 with (0 * s + 0) at 1 by lia. rewrite V by lia. rewrite W2. match goal with |- @eq _ ?x ?y => change (@eq R x y) end. unfold Rdiv. ring.
    + replace (ax_nel a * s) with ((ax_nel a - 1) * s + s) by lia. rewrite V by lia. rewrite W3. replace (ax_m a - ax_p a - 1 + 1) with (ax_m a - ax_p a) by lia.
      match goal with |- @eq _ ?x ?y => change (@eq R x y) end. field. lra.
    + intros e i He Hi. replace (e * s + i + 1) with (e * s + (i + 1)) by lia. replace (e * s) with (e * s + 0) at 3 by lia. rewrite !V by lia.
      pose proof (span_at_elem a l Hwf e He) as [_ K]. apply klt_R in K. rewrite plus_IZR.
      set (U0 := ax_U a (span_at a e)) in *. set (U1 := ax_U a (span_at a e + 1)) in *. change (U0 < U1)%R in K.
      assert (D : (U0 + (IZR i + 1) / IZR s * (U1 - U0) - (U0 + IZR i / IZR s * (U1 - U0)) = (U1 - U0) / IZR s)%R) by (field; lra).
      split; [exact D|]. split; [match goal with |- @eq _ ?x ?y => change (@eq R x y) end; unfold Rdiv; ring|].
      assert (0 < (U1 - U0) / IZR s)%R by (apply Rdiv_lt_0_compat; lra).
      change (U0 + IZR i / IZR s * (U1 - U0) < U0 + (IZR i + 1) / IZR s * (U1 - U0))%R. lra.
  - intros r t q Hr Ht. destruct (dr_on_process _ _ _ _ _ _ _ _ HS E HE res Hres r t q Hr Ht) as [H1 H2]. split; [exact H1|].
    unfold set_point_self. rewrite H2. unfold build. destruct (pe_X E); [destruct (pe_dim E =? pe_nsd E)|]; exact H2.
Qed.
Print Assumptions C53_draw_grid.

(** ** values *)
Lemma draw_loop_nth E res r val (I : probe -> Prop) m : (forall q, length (val q) = m) ->
  (forall q t, I q -> I (set_point_self E r (draw_point E res t) q)) ->
  forall pts q p t0, I q -> (p < length pts)%nat ->
  exists q', I q' /\ forall c, (c < m)%nat ->
    nth (p * m + c) (draw_loop E res r val pts q) 0%R = nth c (val (set_point_self E r (draw_point E res (nth p pts t0)) q')) 0%R.
Proof.
  intros Hm HI. induction pts as [|t pts IH]; intros q p t0 Hq Hp; cbn [length] in Hp; [lia|]. destruct p as [|p].
  - exists q. split; [exact Hq|]. intros c Hc. cbn [draw_loop nth]. rewrite app_nth1 by (rewrite Hm; lia). reflexivity.
  - destruct (IH (set_point_self E r (draw_point E res t) q) p t0 (HI q t Hq) ltac:(lia)) as (q' & Q1 & Q2). exists q'. split; [exact Q1|].
    intros c Hc. cbn [draw_loop nth]. rewrite app_nth2 by (rewrite Hm; lia). rewrite Hm. rewrite <- Q2 by exact Hc. f_equal. lia.
Qed.

Lemma set_point_self_keeps E r u q : pb_order (set_point_self E r u q) = pb_order q /\ pb_coll (set_point_self E r u q) = pb_coll q /\
  pb_vec (set_point_self E r u q) = pb_vec q.
Proof.
  unfold set_point_self. destruct (pb_off (locate E r u q)); [repeat split|]. unfold build. destruct (pe_X E); [destruct (pe_dim E =? pe_nsd E)|]; repeat split.
Qed.

Lemma geom_map_no_vec E r u q v i : geom_map E (set_point_self E r u (pb_set_vec q v)) i = geom_map E (set_point_self E r u q) i.
Proof.
  unfold set_point_self. change (pb_off (locate E r u (pb_set_vec q v))) with (pb_off (locate E r u q)).
  unfold geom_map. destruct (pb_off (locate E r u q)) eqn:Q.
  - change (pb_off (locate E r u (pb_set_vec q v))) with (pb_off (locate E r u q)). rewrite Q. reflexivity.
  - unfold build. destruct (pe_X E); [destruct (pe_dim E =? pe_nsd E)|]; reflexivity.
Qed.

(** The loops write the values of point t of the box at position lin(t - start) of the local array. *)
Lemma loop_position E res r val (I : probe -> Prop) m st w q t c : (forall q, length (val q) = Z.to_nat m) -> 0 <= m ->
  (forall q t, I q -> I (set_point_self E r (draw_point E res t) q)) -> I q ->
  in_box st w t -> 0 <= c < m ->
  exists q', I q' /\ nth (Z.to_nat (lin w (tsub st t) * m + c)) (draw_loop E res r val (box st w) q) 0%R = nth (Z.to_nat c) (val (set_point_self E r (draw_point E res t) q')) 0%R.
Proof.
  intros Hm Hm0 HI Hq Ht Hc. destruct t as [[i j] k]. unfold in_box in Ht.
  assert (Hi : 0 <= i - st 0 < w 0) by lia. assert (Hj : 0 <= j - st 1 < w 1) by lia. assert (Hk : 0 <= k - st 2 < w 2) by lia.
  pose proof (lin_range w (i - st 0) (j - st 1) (k - st 2) Hi Hj Hk) as HL.
  destruct (draw_loop_nth E res r val I (Z.to_nat m) Hm HI (box st w) q (Z.to_nat (lin w (i - st 0, j - st 1, k - st 2))) (0,0,0) Hq) as (q' & Q1 & Q2).
  { set (w' := fun i => if i =? 0 then w 0 else if i =? 1 then w 1 else w 2).
    change (box st w) with (box st w'). rewrite length_box; [change (vol w') with (vol w); clear - HL; lia|].
    intros x. unfold w'. destruct (x =? 0); [lia|]. destruct (x =? 1); lia. }
  exists q'. split; [exact Q1|]. specialize (Q2 (Z.to_nat c) ltac:(clear - Hc; lia)). rewrite nth_box in Q2 by assumption.
  unfold tsub. replace (Z.to_nat (lin w (i - st 0, j - st 1, k - st 2) * m + c)) with (Z.to_nat (lin w (i - st 0, j - st 1, k - st 2)%Z) * Z.to_nat m + Z.to_nat c)%nat.
  - rewrite Q2. rewrite (Zplus_minus (st 0) i), (Zplus_minus (st 1) j), (Zplus_minus (st 2) k). reflexivity.
  - rewrite Z2Nat.inj_add, Z2Nat.inj_mul by (try apply Z.mul_nonneg_nonneg; clear - HL Hm0 Hc; lia). reflexivity.
Qed.

(** C53: IGADrawVec fills the local array of every process with the values of the field at the points of its box, and
    IGACreateDrawDM the coordinates with the images of these points. *)
Theorem C53_drawn_values :
  forall g2 g3 maxint size dim (axes : Z -> axis Rord) user LY E res0 order A w X L,
  setup_ok g2 g3 maxint size dim axes user LY -> probe_of size dim axes LY E -> bspline_tables E -> 0 <= order <= 4 -> 0 <= pe_dof E ->
  match pe_W E, w with
  | Some W, Some w => forall r, 0 <= r < size -> local_copy (ghost_lo LY r) (ghost_width LY r) 1 (W r) (fun t _ => w t)
  | None, None => True
  | _, _ => False
  end ->
  match pe_X E, X with
  | Some P, Some X => dim <= pe_nsd E /\ forall r, 0 <= r < size -> local_copy (ghost_lo LY r) (ghost_width LY r) (pe_nsd E) (P r) X
  | None, None => pe_nsd E = dim
  | _, _ => False
  end ->
  (forall r, 0 <= r < size -> local_copy (ghost_lo LY r) (ghost_width LY r) (pe_dof E) (L r) A) ->
  let res := draw_resolution dim axes res0 in
  let st := draw_start E LY res in
  let wd := draw_width E LY res in
  exists out, draw_vec E size LY res order L = Some out /\
  forall r t, 0 <= r < size -> in_box (st r) (wd r) t ->
  let x := draw_point E res t in
  (forall c, 0 <= c < pe_dof E -> exists k, spans_of dim axes x k /\
     nth (Z.to_nat (lin (wd r) (tsub (st r) t) * pe_dof E + c)) (out r) 0%R = piece_field dim axes k w A c (fun d => x (d-1))) /\
  (forall i, 0 <= i < pe_nsd E -> exists k, spans_of dim axes x k /\
     nth (Z.to_nat (lin (wd r) (tsub (st r) t) * pe_nsd E + i)) (draw_coords E size LY res order r) 0%R =
     match X with Some X => piece_field dim axes k w X i (fun d => x (d-1)) | None => x i end).
Proof.
  intros g2 g3 maxint size dim axes user LY E res0 order A w X L HS HE HB Hord Hdof HW HX HL res st wd. pose proof HE as (Edim & Eaxes & Egeom).
  pose proof (dr_dim _ _ _ _ _ _ _ _ HS) as DB.
  assert (Hres : forall d, 0 <= d < dim -> 1 <= res d) by (intros d Hd; unfold res, draw_resolution; replace (d <? dim) with true by lia; lia).
  assert (HWn : pe_W E = None <-> w = None) by (destruct (pe_W E), w; try contradiction; split; congruence).
  assert (HX' : match pe_X E, X with Some P, Some X => forall r, 0 <= r < size -> local_copy (ghost_lo LY r) (ghost_width LY r) (pe_nsd E) (P r) X | None, None => True | _, _ => False end).
  { destruct (pe_X E), X; try contradiction; [apply HX|exact I]. }
  assert (Hnsd : 0 <= pe_nsd E) by (destruct (pe_X E), X; try contradiction; lia).
  assert (H0 : 0 <= 0 < size) by (destruct HS as (_ & _ & Q & _); lia).
  (* one point *)
  assert (PT : forall r t q, 0 <= r < size -> in_box (st r) (wd r) t -> pb_order q = 0 -> pb_vec q = Some (L r) ->
    let q1 := set_point_self E r (draw_point E res t) q in
    exists q', q1 = build E q' /\ ready dim axes E (draw_point E res t) A w X q' /\ pb_off q' = false /\ pb_order q' = 0 /\ (exists L, pb_vec q' = Some L)).
  { intros r t q Hr Ht Ho Hv. cbv zeta. destruct (dr_on_process _ _ _ _ _ _ _ _ HS E HE res Hres r t q Hr Ht) as [Hu Hoff].
    set (St := fun r' => if r' =? r then q else pb_set_vec q (Some (L r'))).
    assert (Er : St r = q) by (unfold St; rewrite Z.eqb_refl; reflexivity).
    assert (V : forall r, 0 <= r < size -> exists L, pb_vec (St r) = Some L /\ local_copy (ghost_lo LY r) (ghost_width LY r) (pe_dof E) L A).
    { intros r' Hr'. exists (L r'). split; [|apply HL; exact Hr']. unfold St. destruct (r' =? r) eqn:Q; [|reflexivity]. apply Z.eqb_eq in Q. subst r'. exact Hv. }
    assert (O' : forall r, 0 <= r < size -> pb_order (St r) = 0) by (intros r' _; unfold St; destruct (r' =? r); exact Ho).
    destruct (set_point_self_ready g2 g3 maxint size dim axes user LY HS E Edim Eaxes Egeom (draw_point E res t) Hu St 0 A w X V O' HW HX' r Hr) as [_ R].
    rewrite Er in R. destruct (R Hoff) as (q' & R1 & R2 & R3 & R4 & R5 & _). exists q'. tauto. }
  (* the probe *)
  assert (PR : exists St, draw_probe E size order L = Some St /\ forall r, 0 <= r < size -> pb_order (St r) = 0 /\ pb_vec (St r) = Some (L r)).
  { unfold draw_probe, set_vec, set_point. cbn [pb_set_vec pb_coll probe_init].
    change (pb_coll (pb_set_vec (probe_init E size order) (Some (L 0)))) with (negb (size =? 1)).
    assert (K : forall q, pb_order (set_collective size false (snd (set_order 0 q))) = 0 /\ pb_vec (set_collective size false (snd (set_order 0 q))) = pb_vec q) by (intros q; split; reflexivity).
    destruct (negb (size =? 1)).
    - set (u := pb_point (probe_init E size order)). set (St0 := fun r => pb_set_vec (probe_init E size order) (Some (L r))).
      assert (Hu : in_domain dim axes u).
      { intros d Hd. unfold u, probe_init. cbn [pb_point]. rewrite Edim, Eaxes. replace (d <? dim) with true by lia.
        destruct (setup_wf _ _ _ _ _ _ _ _ HS d Hd) as (l & (_ & (Hp & Hm & HN & _) & _) & _). split; [apply Rle_refl|]. apply kle_R. apply HN; lia. }
      assert (V : forall r, 0 <= r < size -> exists L, pb_vec (St0 r) = Some L /\ local_copy (ghost_lo LY r) (ghost_width LY r) (pe_dof E) L A) by (intros r Hr; exists (L r); split; [reflexivity|apply HL; exact Hr]).
      destruct (set_point_all_ready g2 g3 maxint size dim axes user LY HS E Edim Eaxes Egeom u Hu St0 order A w X V (fun _ _ => eq_refl) HW HX') as (St' & E1 & _).
      assert (VV : forall r, pb_vec (St' r) = Some (L r)).
      { clear - E1. intros r. unfold set_point_all in E1. match type of E1 with (if ?b then _ else _) = _ => destruct b; [discriminate|] end.
        apply (f_equal (fun o => match o with Some s => pb_vec (s r) | None => pb_vec (St' r) end)) in E1. cbv beta iota zeta in E1. rewrite <- E1.
        match goal with |- pb_vec (build E ?q) = _ => assert (B : pb_vec (build E q) = pb_vec q) by (unfold build; destruct (pe_X E); [destruct (pe_dim E =? pe_nsd E)|]; reflexivity); rewrite B; clear B end.
        cbn [pb_vec pb_set_data]. destruct (pb_off (locate E r u (St0 r))); reflexivity. }
      change (set_point_all E size (pb_point (probe_init E size order)) (fun r => pb_set_vec (probe_init E size order) (Some (L r)))) with (set_point_all E size u St0). rewrite E1.
      eexists. split; [reflexivity|]. intros r _. cbv beta. destruct (K (St' r)) as [-> ->]. split; [reflexivity|apply VV].
    - eexists. split; [reflexivity|]. intros r _. cbv beta. match goal with |- context [set_order 0 ?q] => destruct (K q) as [-> ->] end.
      split; [reflexivity|]. destruct (set_point_self_keeps E r (pb_point (probe_init E size order)) (pb_set_vec (probe_init E size order) (Some (L r)))) as (_ & _ & ->). reflexivity. }
  destruct PR as (St & P1 & P2). unfold draw_vec. rewrite P1. eexists. split; [reflexivity|]. intros r t Hr Ht. cbv beta zeta.
  destruct (P2 r Hr) as [P3 P4]. split.
  - intros c Hc.
    destruct (loop_position E res r (fun q => map (fun c => snd (evaluate E q 0) [] c) (zseq 0 (pe_dof E))) (fun q => pb_order q = 0 /\ pb_vec q = Some (L r)) (pe_dof E) (st r) (wd r) (St r) t c) as (q & (I1 & I2) & EQ).
    + intros q. rewrite map_length, length_zseq. reflexivity.
    + exact Hdof.
    + intros q t' [I1 I2]. destruct (set_point_self_keeps E r (draw_point E res t') q) as (-> & _ & ->). split; assumption.
    + split; assumption.
    + exact Ht.
    + exact Hc.
    + destruct (PT r t q Hr Ht I1 I2) as (q' & R1 & R & R3 & R4 & R5). exists (pb_ID q'). split; [apply R|].
      etransitivity; [exact EQ|]. rewrite R1. rewrite IOProofs.nth_map_zseq by (clear - Hc; lia). replace (0 + c) with c by (clear; lia).
      apply (tb_value_any g2 g3 maxint size dim axes user LY HS E Edim Eaxes HB (draw_point E res t) A w X q' 0 HWn R R4 ltac:(clear; lia) c R5 (or_introl R3) Hc).
  - intros i Hi. unfold draw_coords.
    destruct (loop_position E res r (fun q => map (fun i => geom_map E q i) (zseq 0 (pe_nsd E))) (fun q => pb_order q = 0) (pe_nsd E) (st r) (wd r) (set_collective size false (snd (set_order 0 (probe_init E size order)))) t i) as (q & I1 & EQ).
    + intros q. rewrite map_length, length_zseq. reflexivity.
    + exact Hnsd.
    + intros q t' I1. destruct (set_point_self_keeps E r (draw_point E res t') q) as (-> & _). assumption.
    + reflexivity.
    + exact Ht.
    + exact Hi.
    + rewrite IOProofs.nth_map_zseq in EQ by (clear - Hi; lia). replace (0 + i) with i in EQ by (clear; lia).
      rewrite <- (geom_map_no_vec E r (draw_point E res t) q (Some (L r)) i) in EQ.
      destruct (PT r t (pb_set_vec q (Some (L r))) Hr Ht I1 eq_refl) as (q' & R1 & R & R3 & R4 & R5). exists (pb_ID q'). split; [apply R|].
      etransitivity; [exact EQ|]. rewrite R1.
      destruct (tb_geom g2 g3 maxint size dim axes user LY HS E Edim Eaxes HB (draw_point E res t) A w X q' 0 HWn R R4 ltac:(clear; lia) i (or_introl R3)) as [G1 G2].
      destruct (pe_X E) as [P|] eqn:EP, X as [X|]; try contradiction.
      * apply (G2 X); [reflexivity|congruence|exact Hi].
      * apply G1; [reflexivity|]. rewrite HX in Hi. exact Hi.
Qed.
Print Assumptions C53_drawn_values.

(** C53 in collocation mode: the draw points are the Greville points of the owned nodes, and the process holds them. *)
Theorem C53_collocation_points_on_process :
  forall dim (axes : Z -> axis Rord) (P c shift : Z -> Z) (nd : Z -> range) E r,
  1 <= dim <= 3 -> pe_dim E = dim -> pe_axes E = axes ->
  (forall d, 0 <= d < dim -> axis_ready (axes d) /\ 1 <= P d <= ax_nnp (axes d) /\ 0 <= c d < P d /\
     colloc_node_range (axes d) (ax_nnp (axes d)) (dist_s (P d) (ax_nnp (axes d)) (c d)) (dist_n (P d) (ax_nnp (axes d)) (c d)) = Some (shift d, nd d) /\
     pe_geom E r d = colloc_geom_range (axes d) (P d) (c d) (shift d) (nd d)) ->
  forall t q, (forall d, 0 <= d < dim -> r_lstart (nd d) <= coord t d < r_lstart (nd d) + r_lwidth (nd d)) ->
  let x := draw_point_colloc dim axes shift t in
  (forall d, 0 <= d < dim -> (IZR (ax_p (axes d)) * x d = rsum (fun j => ax_U (axes d) (coord t d + shift d + j)%Z) (zseq 1 (ax_p (axes d))))%R) /\
  pb_off (locate E r x q) = false.
Proof.
  intros dim axes P c shift nd E r Hdim Edim Eaxes H t q Ht x.
  assert (Hp : forall d, 0 <= d < dim -> 1 <= ax_p (axes d)) by (intros d Hd; destruct (H d Hd) as ((l & _ & HV & _) & _); apply HV).
  assert (Hx : forall d, 0 <= d < dim -> x d = greville (coord t d + shift d) (ax_p (axes d)) (ax_U (axes d))).
  { intros d Hd. unfold x, draw_point_colloc, greville_point. replace (d <? dim) with true by lia. specialize (Hp d Hd). replace (ax_p (axes d) =? 0) with false by lia. reflexivity. }
  split.
  - intros d Hd. rewrite (Hx d Hd). apply greville_mean. apply Hp. exact Hd.
  - unfold locate. cbn [pb_set_loc pb_off]. unfold pr_off. rewrite Edim. apply Bool.not_true_is_false. intros T. apply existsb_exists in T. destruct T as (d & Hd & T). apply in_zseq in Hd. revert T. apply Bool.not_true_iff_false.
    assert (Hd' : 0 <= d < dim) by lia. destruct (H d Hd') as ((l & L) & HP & Hc & E1 & E2). unfold pr_p. rewrite Edim, Eaxes. replace (d <? dim) with true by lia. cbv zeta.
    rewrite E2. destruct (colloc_range_spec (axes d) l (P d) (c d) L HP Hc) as (rg & E1' & A1 & A2 & A3 & A4 & A5 & A6).
    unfold cn in E1'. rewrite E1 in E1'. injection E1' as S1 S2. subst rg.
    assert (HID : exists k, pr_ID E r (fun i => if i <? dim then x i else pb_point q i) d = k /\
      find_span (O:=Rord) (ax_m (axes d) - ax_p (axes d) - 1) (ax_p (axes d)) (greville (coord t d + shift d) (ax_p (axes d)) (ax_U (axes d))) (ax_U (axes d)) = Some k /\
      ax_p (axes d) <= k <= ax_m (axes d) - ax_p (axes d) - 1).
    { unfold pr_ID. rewrite Edim, Eaxes, E2. replace (d <? dim) with true by lia. rewrite (Hx d Hd').
      replace (r_size (colloc_geom_range (axes d) (P d) (c d) (shift d) (nd d)) - 1) with (ax_m (axes d) - ax_p (axes d) - 1).
      2:{ unfold colloc_geom_range. destruct (c d =? 0), (c d =? P d - 1); cbn [r_size]; lia. }
      pose proof L as (_ & HV & _). pose proof HV as (Hp1 & Hm & _).
      destruct (find_span_spec (O:=Rord) (ax_m (axes d) - ax_p (axes d) - 1) (ax_p (axes d)) (greville (coord t d + shift d) (ax_p (axes d)) (ax_U (axes d))) (ax_U (axes d)) ltac:(lia)) as (k & K1 & K2 & _).
      rewrite K1. exists k. repeat split; auto; lia. }
    destruct HID as (k & -> & K1 & K2). rewrite <- S1 in A5.
    pose proof (A5 (coord t d) k (Ht d Hd') K1) as Act.
    assert (B1 := Act (k - ax_p (axes d)) ltac:(unfold active; specialize (Hp d Hd'); lia)).
    assert (B2 := Act k ltac:(unfold active; specialize (Hp d Hd'); lia)).
    unfold colloc_geom_range. destruct (c d =? 0), (c d =? P d - 1); cbn [r_gstart r_gwidth]; lia.
Qed.
Print Assumptions C53_collocation_points_on_process.

(** Three elements, degree 2, two processes, default resolution: seven draw points, four on process 0.  The fourth one
    is the midpoint 5/2 of the second element [1,4]; the field has the value 35/8 there. *)
Example C53_example :
  let res := draw_resolution 1 ex_raxes None in
  let L := fun r => local_array (ghost_lo ex_rLY r) (ghost_width ex_rLY r) 1 ex_A in
  draw_sizes ex_E ex_rLY res 0 = 7 /\ draw_width ex_E ex_rLY res 0 0 = 4 /\ draw_start ex_E ex_rLY res 1 0 = 4 /\ draw_width ex_E ex_rLY res 1 0 = 3 /\
  exists out, draw_vec ex_E 2 ex_rLY res 1 L = Some out /\ nth 3 (out 0) 0%R = (35/8)%R /\ nth 3 (draw_coords ex_E 2 ex_rLY res 1 0) 0%R = (5/2)%R.
Proof.
  cbv zeta. split; [vm_compute; reflexivity|]. split; [vm_compute; reflexivity|]. split; [vm_compute; reflexivity|]. split; [vm_compute; reflexivity|].
  destruct (C53_drawn_values _ _ _ _ _ _ _ _ ex_E None 1 ex_A None None (fun r => local_array (ghost_lo ex_rLY r) (ghost_width ex_rLY r) 1 ex_A)
    ex_rsetup_ok ex_probe_of ex_tables ltac:(lia) ltac:(cbn; lia) I eq_refl ltac:(intros r Hr; apply local_array_copy)) as (out & H1 & H2).
  exists out. split; [exact H1|].
  assert (HB : in_box (draw_start ex_E ex_rLY (draw_resolution 1 ex_raxes None) 0) (draw_width ex_E ex_rLY (draw_resolution 1 ex_raxes None) 0) (3,0,0)).
  { assert (B : forallb (fun d => (draw_start ex_E ex_rLY (draw_resolution 1 ex_raxes None) 0 d =? 0) && (draw_width ex_E ex_rLY (draw_resolution 1 ex_raxes None) 0 d =? if d =? 0 then 4 else 1)) [0;1;2] = true) by (vm_compute; reflexivity).
    cbn [forallb] in B. unfold in_box. change (0 =? 0) with true in B. change (1 =? 0) with false in B. change (2 =? 0) with false in B. cbv iota in B. lia. }
  destruct (H2 0 (3,0,0) ltac:(lia) HB) as [V G]. cbv zeta in V, G.
  assert (X : draw_point ex_E (draw_resolution 1 ex_raxes None) (3,0,0) 0 = (5/2)%R).
  { change (draw_point ex_E (draw_resolution 1 ex_raxes None) (3,0,0) 0) with (1 + IZR 1 / IZR 2 * (4 - 1))%R. field. }
  assert (PS : Z.to_nat (lin (draw_width ex_E ex_rLY (draw_resolution 1 ex_raxes None) 0) (tsub (draw_start ex_E ex_rLY (draw_resolution 1 ex_raxes None) 0) (3,0,0)) * 1 + 0) = 3%nat) by (vm_compute; reflexivity).
  split.
  - destruct (V 0 ltac:(cbn; lia)) as (k & K & EQ). change (pe_dof ex_E) with 1 in EQ. rewrite PS in EQ. rewrite EQ.
    assert (Hk : k 0 = 3).
    { destruct (K 0 ltac:(lia)) as (K1 & _ & K3 & K4). rewrite X in K3, K4. cbn [ex_raxes ax_U ax_p ax_m] in *.
      assert (C : k 0 = 2 \/ k 0 = 3 \/ k 0 = 4) by lia. destruct C as [C | [C | C]]; [|exact C|]; exfalso; rewrite C in *.
      - change (ex_knots (2+1)) with 1%R in K4. change (ex_knots (7-2)) with 5%R in K4. destruct K4 as [K4|[_ K4]]; lra.
      - change (ex_knots 4) with 4%R in K3. lra. }
    transitivity (piece_field 1 ex_raxes (fun _ => 3) None ex_A 0 (fun d => draw_point ex_E (draw_resolution 1 ex_raxes None) (3,0,0) (d-1))).
    + unfold piece_field, piece_weight. change (zseq 1 (piece_nen 1 ex_raxes)) with [1;2;3].
      cbv -[Rplus Rminus Rmult Rdiv Rinv Ropp IZR R Req_EM_T]. rewrite Hk. cbv -[Rplus Rminus Rmult Rdiv Rinv Ropp IZR R Req_EM_T]. reflexivity.
    + rewrite ex_piece. change (1-1) with 0. rewrite X. field.
  - destruct (G 0 ltac:(cbn; lia)) as (k & K & EQ). change (pe_nsd ex_E) with 1 in EQ. rewrite PS in EQ. rewrite EQ. exact X.
Qed.

(** Collocation: the axis of C50_collocation_point_lost_refuted, whose processes miss a knot span but none of the draw points. *)
Example C53_collocation_example :
  exists (a : axis Rord) shift nd, axis_ready a /\ 1 <= 2 <= ax_nnp a /\
    colloc_node_range a (ax_nnp a) (dist_s 2 (ax_nnp a) 1) (dist_n 2 (ax_nnp a) 1) = Some (shift, nd) /\ r_lstart nd <= 3 < r_lstart nd + r_lwidth nd.
Proof.
  destruct C50_collocation_point_lost_refuted as (a & shift & nd & E & x & H1 & H2 & H3 & H4 & _).
  exists a, shift, (nd 1). split; [exact H2|].
  pose proof (init_breaks_spec 4 gap_breaks (-1) (fun _ => 0%R) (@mk_axis Rord false 3 1 (fun _ => 0%R) 1 1 (Some [0]))) as HS.
  rewrite H1 in HS. cbn [ax_p ax_periodic] in HS. cbv zeta in HS. change (eff_C (-1) 3) with 2 in HS. destruct HS as (_ & _ & HS).
  destruct (HS eq_refl) as [_ _ _ _ _ _ G7 _ _ _ _]. assert (En : ax_nnp a = 6) by (rewrite G7; reflexivity). destruct (H4 1 ltac:(lia)) as [H5 _]. rewrite En in *.
  split; [lia|]. split; [exact H5|]. revert H5. unfold colloc_node_range. destruct (find_span _ _ _ _); [|discriminate]. destruct (find_span _ _ _ _); [|discriminate].
  intros H5. injection H5 as _ H5. rewrite <- H5. cbn [r_lstart r_lwidth]. change (dist_s 2 6 1) with 3. change (dist_n 2 6 1) with 3. lia.
Qed.
