(** Collocation: the layouts IGASetUp computes carry the rows. *)
From Coq Require Import ZArith List Bool Lia Reals Lra Permutation.
From Coq Require Import ZifyBool ZifyNat.
From Verif Require Import Prelude RealOrd AxisModel AxisSpec AxisInitModel PartModel PartSpec PartProofs SetupModel SetupProofs SetupProps CollocProofs
  Box GridModel GridSpec GridProofs GridProofs2 GridSetup GridProps ElemModel ElemSpec ElemProofs ElemProps AsmProofs
  BCModel BCSpec DrvModel DrvSpec DrvProofs RuleModel MapModel TabModel ColModel ColSpec ColProofs ColProofs2.
Import ListNotations.
Open Scope Z_scope.

Section Setup.
  Variables (g2 : Z -> Z -> Z -> Z) (g3 : Z -> Z -> Z -> Z -> Z) (maxint size dim : Z) (axes : Z -> axis Rord) (user : list Z)
            (LY : Z -> layout).
  Hypothesis S : col_setup_ok g2 g3 maxint size dim axes user LY.
  Let nnp := fun i => ax_nnp (axes i).
  Let shift := fun i => images (ax_p (axes i)) (ax_m (axes i)) (ax_nnp (axes i)).

  Lemma shift_eq i : shift i = col_shift (ax_p (axes i)) (ax_m (axes i)) (nnp i).
  Proof. unfold shift, images, col_shift, nnp. f_equal. lia. Qed.

  Lemma col_form : exists n, Forall (fun a => 1 <= a) n /\ Z.of_nat (length n) = dim /\ 1 <= dim <= 3 /\ zprod n = size /\
      (forall i, 0 <= i < dim -> 1 <= pad 1 n i <= nnp i) /\
      forall r, 0 <= r < size -> LY r = col_layout_of dim axes n (rank_coords n r).
  Proof.
    destruct S as (H2 & H3 & Hs & Hax & H). pose proof (H 0 ltac:(lia)) as E0. unfold col_stage1 in E0.
    set (N := map (fun i => ax_nnp (axes i)) (zseq 0 dim)) in *.
    destruct (partition g2 g3 maxint size 0 N user) as [[st n] c] eqn:E.
    destruct st; try discriminate. clear E0.
    destruct (partition_spec g2 H2 g3 H3 _ _ _ _ _ _ _ E) as (A & B & C & D & F & G & _ & I & _).
    assert (LN : length N = Z.to_nat dim) by (unfold N; rewrite map_length, length_zseq; reflexivity).
    exists n. split; [auto|]. split; [lia|]. split; [lia|]. split; [auto|]. split.
    - intros i Hi. unfold pad.
      assert (K : nth (Z.to_nat i) N 1 = ax_nnp (axes i)).
      { unfold N. rewrite nth_indep with (d' := ax_nnp (axes 0)) by (rewrite map_length, length_zseq; lia).
        rewrite map_nth with (f := fun i => ax_nnp (axes i)). rewrite nth_zseq by lia. f_equal. f_equal. lia. }
      unfold nnp. rewrite <- K. clear - I G Hi C LN.
      assert (Hk : (Z.to_nat i < length n)%nat) by lia. clear Hi C LN. revert Hk.
      generalize (Z.to_nat i) as k. induction I as [|x y N' n' Hxy I IH]; intros [|k] Hk; cbn in *; try lia;
      inversion G; subst; try lia. apply IH; auto. lia.
    - intros r Hr. pose proof (H r Hr) as Er. unfold col_stage1 in Er. fold N in Er.
      erewrite partition_rank_indep in Er by eauto. congruence.
  Qed.

  Lemma col_wf d : 0 <= d < dim -> exists l, wf (axes d) l /\ ends_nonempty (O:=Rord) (ax_p (axes d)) (ax_m (axes d)) (ax_U (axes d)) /\ shift d <= nnp d.
  Proof. intros Hd. destruct S as (_ & _ & _ & Hax & _). destruct (Hax d Hd) as [(l & L) [He Hi]]. exists l. auto. Qed.

  Definition node_count (d : Z) : Z := if d <? dim then ax_nnp (axes d) else 1.

  (** node range of a direction, at coordinate c of P *)
  Let nrg (d P c : Z) : range := match cn (axes d) P c with Some (_, r) => r | None => mk_range 0 0 0 0 0 end.
  Lemma col_node_dir n c d : 0 <= d < dim -> ly_node (col_layout_of dim axes n c) d = nrg d (pad 1 n d) (pad 0 c d).
  Proof. intros Hd. unfold col_layout_of; cbn [ly_node]. replace (d <? dim) with true by lia. reflexivity. Qed.
  Lemma col_node_unit n c d : dim <= d -> ly_node (col_layout_of dim axes n c) d = unit_range.
  Proof. intros Hd. unfold col_layout_of; cbn [ly_node]. replace (d <? dim) with false by lia. reflexivity. Qed.
  Lemma nrg_spec d P c : 0 <= d < dim -> 1 <= P <= nnp d -> 0 <= c < P -> exists rg, nrg d P c = rg /\ cn (axes d) P c = Some (shift d, rg) /\
    r_size rg = nnp d /\ r_lstart rg = dist_s P (nnp d) c /\ r_lwidth rg = dist_n P (nnp d) c /\ 1 <= r_lwidth rg /\
    (forall x A, r_lstart rg <= x < r_lstart rg + r_lwidth rg ->
       active (ax_p (axes d)) A (col_span (ax_p (axes d)) (ax_m (axes d)) (ax_U (axes d)) (nnp d) x) ->
       r_gstart rg <= A - shift d < r_gstart rg + r_gwidth rg) /\
    r_gstart rg <= r_lstart rg /\ r_lstart rg + r_lwidth rg <= r_gstart rg + r_gwidth rg /\ - shift d <= r_gstart rg /\
    (let k := fun x => col_span (ax_p (axes d)) (ax_m (axes d)) (ax_U (axes d)) (nnp d) x in
     r_gstart rg = k (r_lstart rg) - shift d - ax_p (axes d) /\ r_gstart rg + r_gwidth rg = k (r_lstart rg + r_lwidth rg - 1) - shift d + 1).
  Proof.
    intros Hd HP Hc. destruct (col_wf d Hd) as (l & L & He & Hi).
    destruct (colloc_range_spec (axes d) l P c L HP Hc) as (rg & E & S1 & S2 & S3 & S4 & S5 & S6). cbv zeta in *.
    assert (Esh : (ax_m (axes d) - ax_p (axes d) - 1 + 1 - ax_nnp (axes d)) / 2 = shift d) by (unfold shift, images; f_equal; lia).
    rewrite Esh in E, S5. exists rg. unfold nrg. rewrite E. split; [auto|]. split; [auto|]. split; [auto|]. split; [auto|]. split; [auto|]. split; [auto|].
    destruct (S6 He) as [S6a S6b]. split; [|split; [auto|split; [auto|]]].
   
    - intros x A Hx HA. apply (S5 x _ Hx (span_of_some _ _ _ (proj1 (proj2 L)) _)).
      unfold col_span, col_point in HA. rewrite <- shift_eq in HA. exact HA.
    - pose proof L as (_ & HV & _). pose proof HV as (Hp & Hm & _).
      pose proof E as E'. unfold cn, colloc_node_range in E'. rewrite Esh in E'.
      rewrite !(span_of_some _ _ _ HV) in E'. injection E' as E'. rewrite <- E'. cbn [r_gstart r_lstart r_lwidth r_gwidth].
      pose proof (find_span_cases _ _ _ HV _ _ (span_of_some _ _ _ HV (greville (dist_s P (ax_nnp (axes d)) c + shift d) (ax_p (axes d)) (ax_U (axes d))))) as [B _].
      split; [lia|]. unfold col_span, col_point. rewrite <- shift_eq. split; lia.
  Qed.

  Lemma col_dim : 1 <= dim <= 3.
  Proof. destruct col_form as (n & _ & _ & H & _). exact H. Qed.
  Lemma col_size : 1 <= size.
  Proof. destruct S as (_ & _ & H & _). exact H. Qed.

  (** Per-rank, per-direction facts. *)
  Lemma col_facts : forall r d, 0 <= r < size -> 0 <= d < 3 ->
    let nd := ly_node (LY r) d in
    r_size nd = node_count d /\ 1 <= node_count d /\ 0 <= r_lstart nd /\ 1 <= r_lwidth nd /\ r_lstart nd + r_lwidth nd <= node_count d /\
    r_gstart nd <= r_lstart nd /\ r_lstart nd + r_lwidth nd <= r_gstart nd + r_gwidth nd /\ - node_count d <= r_gstart nd /\
    ly_elem_start (LY r) d = r_lstart nd /\ ly_elem_width (LY r) d = r_lwidth nd /\
    (d < dim -> forall x A, r_lstart nd <= x < r_lstart nd + r_lwidth nd ->
       active (ax_p (axes d)) A (col_span (ax_p (axes d)) (ax_m (axes d)) (ax_U (axes d)) (ax_nnp (axes d)) x) ->
       r_gstart nd <= A - shift d < r_gstart nd + r_gwidth nd) /\
    (dim <= d -> nd = unit_range) /\
    (d < dim -> let k := fun x => col_span (ax_p (axes d)) (ax_m (axes d)) (ax_U (axes d)) (ax_nnp (axes d)) x in
       r_gstart nd = k (r_lstart nd) - shift d - ax_p (axes d) /\ r_gstart nd + r_gwidth nd = k (r_lstart nd + r_lwidth nd - 1) - shift d + 1).
  Proof.
    intros r d Hr Hd nd. destruct col_form as (n & Hn & HL & Hdim & Hz & HP & HLY).
    assert (Edef : nd = ly_node (col_layout_of dim axes n (rank_coords n r)) d) by (unfold nd; rewrite (HLY r Hr); reflexivity).
    assert (Ees : ly_elem_start (LY r) d = if d <? dim then dist_s (pad 1 n d) (nnp d) (pad 0 (rank_coords n r) d) else 0).
    { rewrite (HLY r Hr). unfold col_layout_of; cbn [ly_elem_start]. destruct (d <? dim); reflexivity. }
    assert (Eew : ly_elem_width (LY r) d = if d <? dim then dist_n (pad 1 n d) (nnp d) (pad 0 (rank_coords n r) d) else 1).
    { rewrite (HLY r Hr). unfold col_layout_of; cbn [ly_elem_width]. destruct (d <? dim); reflexivity. }
    rewrite Ees, Eew. clear Ees Eew. unfold node_count. destruct (d <? dim) eqn:E.
    - rewrite (col_node_dir n _ d ltac:(lia)) in Edef.
      pose proof (pad_coords n r d Hn ltac:(lia) ltac:(lia)) as Hc.
      destruct (nrg_spec d (pad 1 n d) (pad 0 (rank_coords n r) d) ltac:(lia) (HP d ltac:(lia)) Hc)
        as (rg & N0 & N1 & N2 & N3 & N4 & N5 & N6 & N7 & N8 & N9 & N10).
      rewrite N0 in Edef. clearbody nd. subst nd.
      pose proof (HP d ltac:(lia)) as HPd.
      pose proof (tiles_bounds _ _ _ _ (dist_tiles (pad 1 n d) (nnp d) ltac:(lia) ltac:(lia)) _ Hc) as TB. cbv beta in TB.
      rewrite N3, N4 in *. destruct (col_wf d ltac:(lia)) as (_ & _ & _ & Hsh).
      split; [auto|]. split; [unfold nnp in *; lia|]. split; [lia|]. split; [auto|]. split; [unfold nnp in *; lia|]. split; [auto|]. split; [auto|].
      split; [clear - N9 Hsh; assert (X : - nnp d <= r_gstart rg) by (clearbody shift nnp; lia); exact X|].
      split; [auto|]. split; [auto|]. split; [intros _; exact N6|]. split; [lia|]. intros _. exact N10.
    - rewrite (col_node_unit n _ d ltac:(lia)) in Edef. clearbody nd. subst nd. unfold unit_range; cbn [r_size r_lstart r_lwidth r_gstart r_gwidth].
      repeat (split; [lia|]). split; [auto|lia].
  Qed.

  Lemma col_node_tile : boxes_tile size node_count (fun r d => r_lstart (ly_node (LY r) d)) (fun r d => r_lwidth (ly_node (LY r) d)).
  Proof.
    split.
    - intros r Hr d Hd. pose proof (col_facts r d Hr Hd) as F. cbv zeta in F. unfold zero3. lia.
    - intros [[i j] k] Hin. unfold in_box, zero3 in Hin.
      set (x := fun d => if d =? 0 then i else if d =? 1 then j else k).
      assert (Hx : forall d, 0 <= d < 3 -> 0 <= x d < node_count d).
      { intros d Hd. unfold x. assert (Ed : d = 0 \/ d = 1 \/ d = 2) by lia. destruct Hin as (B0 & B1 & B2).
        destruct Ed as [-> | [-> | ->]]; [exact B0|exact B1|exact B2]. }
      destruct col_form as (n & Hn & HL & Hdim & Hz & HP & HLY).
      set (xl := map x (zseq 0 dim)).
      assert (Hxl : forall i, 0 <= i < dim -> pad 0 xl i = x i).
      { intros d Hd. unfold pad, xl. rewrite nth_indep with (d' := x 0) by (rewrite map_length, length_zseq; lia).
        rewrite map_nth, nth_zseq by lia. f_equal. lia. }
      assert (Hloc : forall r d, 0 <= r < size -> 0 <= d < dim ->
        r_lstart (ly_node (LY r) d) = dist_s (pad 1 n d) (nnp d) (pad 0 (rank_coords n r) d) /\
        r_lwidth (ly_node (LY r) d) = dist_n (pad 1 n d) (nnp d) (pad 0 (rank_coords n r) d)).
      { intros r d Hr Hd. rewrite (HLY r Hr), col_node_dir by auto.
        pose proof (pad_coords n r d Hn ltac:(lia) ltac:(lia)) as Hc.
        destruct (nrg_spec d (pad 1 n d) (pad 0 (rank_coords n r) d) ltac:(lia) (HP d ltac:(lia)) Hc) as (rg & N0 & _ & _ & N3 & N4 & _).
        rewrite N0. auto. }
      destruct (boxes_unique n nnp (fun i c => dist_s (pad 1 n i) (nnp i) c) (fun i c => dist_n (pad 1 n i) (nnp i) c) Hn) with (x := xl)
        as (r0 & (Hr0 & HB) & Huniq).
      + intros d Hd. pose proof (HP d ltac:(lia)). apply dist_tiles; lia.
      + unfold xl. rewrite map_length, length_zseq. lia.
      + intros d Hd. rewrite Hxl by lia. pose proof (Hx d ltac:(lia)) as K. unfold node_count in K. replace (d <? dim) with true in K by lia. exact K.
      + assert (Hbox : forall r, 0 <= r < size -> (in_box (fun d => r_lstart (ly_node (LY r) d)) (fun d => r_lwidth (ly_node (LY r) d)) (i, j, k) <->
          forall d, 0 <= d < 3 -> r_lstart (ly_node (LY r) d) <= x d < r_lstart (ly_node (LY r) d) + r_lwidth (ly_node (LY r) d))).
        { intros r Hr. unfold in_box. split.
          - intros (B0 & B1 & B2) d Hd. unfold x. assert (Ed : d = 0 \/ d = 1 \/ d = 2) by lia. destruct Ed as [-> | [-> | ->]]; assumption.
          - intros B. exact (conj (B 0 ltac:(lia)) (conj (B 1 ltac:(lia)) (B 2 ltac:(lia)))). }
        exists r0. split.
        * split; [lia|]. apply Hbox; [lia|]. intros d Hd. destruct (Z.lt_ge_cases d dim) as [E|E].
          -- destruct (Hloc r0 d ltac:(lia) ltac:(lia)) as [-> ->]. specialize (HB d ltac:(lia)). cbv zeta in HB. rewrite Hxl in HB by lia. exact HB.
          -- pose proof (col_facts r0 d ltac:(lia) Hd) as F. cbv zeta in F.
             assert (Eu : ly_node (LY r0) d = unit_range) by (apply F; lia). rewrite Eu. cbn [unit_range r_lstart r_lwidth].
             pose proof (Hx d Hd) as K. unfold node_count in K. replace (d <? dim) with false in K by lia. lia.
        * intros r1 [Hr1 HB1]. apply Huniq. split; [lia|]. intros d Hd. cbv zeta. rewrite Hxl by lia.
          pose proof (proj1 (Hbox r1 Hr1) HB1 d ltac:(lia)) as K. destruct (Hloc r1 d Hr1 ltac:(lia)) as [E1 E2]. rewrite E1, E2 in K. exact K.
  Qed.

  Lemma col_world : forall bs, 1 <= bs -> grid_world size bs node_count (fun r => grid_of bs (ly_node (LY r))).
  Proof.
    intros bs Hbs. pose proof col_size as Hs. split; [auto|]. split; [auto|]. split; [|split].
    - intros d Hd. pose proof (col_facts 0 d ltac:(lia) Hd) as K. cbv zeta in K. apply K.
    - intros r Hr. split; [reflexivity|]. intros d Hd. cbn [grid_of gr_sizes gr_lstart gr_lwidth gr_gwidth].
      pose proof (col_facts r d Hr Hd) as K. cbv zeta in K. split; [apply K|]. lia.
    - apply col_node_tile.
  Qed.

  Variable CB : Z -> R -> Z -> Z -> (Z -> R) -> Z -> Z -> R.
  Variable BT : Z -> btable.
  Hypothesis HB : col_tables CB dim axes BT.

  Lemma unit_span x : col_span 0 1 unit_knots 1 x = 0.
  Proof.
    unfold col_span, span_of. change (1 - 0 - 1) with 0. unfold find_span. generalize (col_point 0 1 unit_knots 1 x) as u. intros u.
    destruct (kltb (unit_knots 0) u) eqn:E1; cbn [negb]; [|reflexivity].
    change (0 + 1) with 1. destruct (kltb u (unit_knots 1)) eqn:E2; cbn [negb]; [|reflexivity].
    change (Z.to_nat (1 - 0)) with 1%nat. change ((1 + 0) / 2) with 0. cbn [find_span_loop]. change (0 + 1) with 1. rewrite E2.
    assert (E3 : kltb u (unit_knots 0) = false).
    { cbn [kltb Rord Rltb] in *. unfold Rltb in *. destruct (Rlt_dec (unit_knots 0) u) as [L|L]; [|discriminate]. destruct (Rlt_dec u (unit_knots 0)); [lra|reflexivity]. }
    rewrite E3. reflexivity.
  Qed.
  Lemma col_off_dir t d : 0 <= d < dim -> dim <= 3 ->
    col_off BT t d = col_span (ax_p (axes d)) (ax_m (axes d)) (ax_U (axes d)) (ax_nnp (axes d)) (coord t d) - ax_p (axes d) - shift d.
  Proof.
    intros Hd Hdim. pose proof (HB d ltac:(lia)) as E. unfold setup_colloc in E. replace (d <? dim) with true in E by lia.
    unfold init_collocation in E. cbn [negb] in E. injection E as E. unfold col_off. rewrite <- E. cbn [bt_q bq_offset].
    rewrite shift_eq. reflexivity.
  Qed.
  Lemma col_nen_dir d : 0 <= d < dim -> dim <= 3 -> col_nen BT d = ax_p (axes d) + 1.
  Proof.
    intros Hd Hdim. pose proof (HB d ltac:(lia)) as E. unfold setup_colloc in E. replace (d <? dim) with true in E by lia.
    unfold init_collocation in E. cbn [negb] in E. injection E as E. unfold col_nen. rewrite <- E. reflexivity.
  Qed.
  Lemma col_off_unit t d : dim <= d < 3 -> 0 <= dim -> col_off BT t d = 0 /\ col_nen BT d = 1.
  Proof.
    intros Hd Hdim. pose proof (HB d ltac:(lia)) as E. unfold setup_colloc in E. replace (d <? dim) with false in E by lia.
    unfold init_collocation in E. cbn [negb] in E. injection E as E. unfold col_off, col_nen. rewrite <- E. cbn [bt_q bq_offset bq_nen].
    rewrite unit_span. split; reflexivity.
  Qed.
End Setup.
