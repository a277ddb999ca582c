(** The layouts computed by IGASetUp on all ranks form distributed grids. *)
From Coq Require Import ZArith List Bool Lia Reals Lra Permutation.
From Coq Require Import ZifyBool ZifyNat.
From Verif Require Import Prelude AxisModel AxisSpec PartModel PartSpec PartProofs SetupModel SetupProofs SetupProps
  Box GridModel GridSpec GridProofs GridProofs2.
Import ListNotations.
Open Scope Z_scope.

(** IGASetUp (quadrature) succeeded on every rank with layouts [LY r]; the axes are consistent and the
    end intervals of their domains are nonempty; [g2], [g3] are the rounded roots. *)
Definition setup_ok {O : KnotOrd} (g2 : Z -> Z -> Z -> Z) (g3 : Z -> Z -> Z -> Z -> Z)
    (maxint size dim : Z) (axes : Z -> axis O) (user : list Z) (LY : Z -> layout) : Prop :=
  (forall a b c, 0 <= g2 a b c) /\ (forall a b c d, 0 <= g3 a b c d) /\ 1 <= size /\
  (forall i, 0 <= i < dim -> axis_ready (axes i) /\ ends_nonempty (ax_p (axes i)) (ax_m (axes i)) (ax_U (axes i))) /\
  (forall r, 0 <= r < size -> stage1 g2 g3 maxint size r dim axes user = (Ok, Some (LY r))).

Section Setup.
  Context {O : KnotOrd}.
  Variables (g2 : Z -> Z -> Z -> Z) (g3 : Z -> Z -> Z -> Z -> Z) (maxint size dim : Z) (axes : Z -> axis O) (user : list Z)
            (LY : Z -> layout).
  Hypothesis S : setup_ok g2 g3 maxint size dim axes user LY.

  Lemma setup_form : exists n, Forall (fun a => 1 <= a) n /\ Z.of_nat (length n) = dim /\ 1 <= dim <= 3 /\ zprod n = size /\
      (forall i, 0 <= i < dim -> 1 <= pad 1 n i <= ax_nel (axes i)) /\
      forall r, 0 <= r < size -> LY r = layout_of dim axes n (rank_coords n r).
  Proof.
    destruct S as (H2 & H3 & Hs & Hax & H).
    destruct (stage1_spec g2 g3 H2 H3 _ _ _ _ _ _ _ (H 0 ltac:(lia))) as (n & Hn & HL & Hdim & Hz & Hr & HP & Hall).
    exists n. repeat (split; [assumption|]). intros r Hr'. pose proof (H r Hr') as E. rewrite (Hall r Hr') in E. congruence.
  Qed.

  Lemma setup_boxes : forall (rg : layout -> Z -> Z * Z) (N : Z -> Z) (s w : Z -> Z -> Z -> Z),
    (forall n c i, 0 <= i < dim -> rg (layout_of dim axes n c) i = (s i (pad 1 n i) (pad 0 c i), w i (pad 1 n i) (pad 0 c i))) ->
    (forall i P, 0 <= i < dim -> 1 <= P <= ax_nel (axes i) -> tiles P (N i) (s i P) (w i P)) ->
    (forall n c i, dim <= i < 3 -> rg (layout_of dim axes n c) i = (0, 1)) ->
    (forall i, dim <= i < 3 -> N i = 1) ->
    boxes_tile size N (fun r d => fst (rg (LY r) d)) (fun r d => snd (rg (LY r) d)).
  Proof.
    intros rg N s w Hrg HT Hrg' HN. destruct setup_form as (n & Hn & HL & Hdim & Hz & HP & HLY).
    destruct S as (H2 & H3 & Hs & Hax & H). split.
    - intros r Hr d Hd. rewrite (HLY r Hr). destruct (Z.lt_ge_cases d dim) as [E|E].
      + rewrite (Hrg n _ d ltac:(lia)). cbn [fst snd].
        pose proof (pad_coords n r d Hn ltac:(lia) ltac:(lia)) as Hc.
        pose proof (tiles_bounds _ _ _ _ (HT d _ ltac:(lia) (HP d ltac:(lia))) _ Hc). unfold zero3.
        pose proof (HT d _ ltac:(lia) (HP d ltac:(lia))) as (_ & _ & K & _). specialize (K _ Hc). lia.
      + rewrite (Hrg' n _ d ltac:(lia)). cbn [fst snd]. rewrite (HN d ltac:(lia)). unfold zero3. lia.
    - intros [[i j] k] Hin. unfold in_box, zero3 in Hin.
      set (x := fun d => if d =? 0 then i else if d =? 1 then j else k).
      pose proof (stage1_unique g2 g3 H2 H3 maxint size dim axes user 0 (LY 0) (H 0 ltac:(lia)) rg N s w Hrg HT x) as K.
      assert (Hx : forall d, 0 <= d < dim -> 0 <= x d < N d).
      { intros d Hd. unfold x. assert (Ed : d = 0 \/ d = 1 \/ d = 2) by lia.
        destruct Ed as [-> | [-> | ->]].
        - change (0 =? 0) with true. cbv iota. lia.
        - change (1 =? 0) with false. change (1 =? 1) with true. cbv iota. lia.
        - change (2 =? 0) with false. change (2 =? 1) with false. cbv iota. lia. }
      specialize (K Hx).
      assert (Hequiv : forall r, 0 <= r < size ->
        ((exists ly, stage1 g2 g3 maxint size r dim axes user = (Ok, Some ly) /\
           forall d, 0 <= d < dim -> fst (rg ly d) <= x d < fst (rg ly d) + snd (rg ly d)) <->
         in_box (fun d => fst (rg (LY r) d)) (fun d => snd (rg (LY r) d)) (i, j, k))).
      { intros r Hr. assert (Hrest : forall d, dim <= d < 3 -> rg (LY r) d = (0, 1)) by (intros d Hd; rewrite (HLY r Hr); apply Hrg'; auto).
        split.
        - intros (ly & E & Hd). rewrite (H r Hr) in E. inversion E; subst ly.
          assert (Q : forall d, 0 <= d < 3 -> fst (rg (LY r) d) <= x d < fst (rg (LY r) d) + snd (rg (LY r) d)).
          { intros d Hd3. destruct (Z.lt_ge_cases d dim); [apply Hd; lia|]. rewrite (Hrest d ltac:(lia)). cbn [fst snd].
            pose proof (HN d ltac:(lia)) as HNd. unfold x. assert (Ed : d = 0 \/ d = 1 \/ d = 2) by lia.
            destruct Ed as [-> | [-> | ->]]; [lia| |].
            - change (1 =? 0) with false. change (1 =? 1) with true. cbv iota. lia.
            - change (2 =? 0) with false. change (2 =? 1) with false. cbv iota. lia. }
          unfold in_box. split; [exact (Q 0 ltac:(lia))|]. split; [exact (Q 1 ltac:(lia))|exact (Q 2 ltac:(lia))].
        - intros HB. exists (LY r). split; [apply H; auto|]. unfold in_box in HB. destruct HB as (B0 & B1 & B2).
          intros d Hd. unfold x. assert (Ed : d = 0 \/ d = 1 \/ d = 2) by lia. destruct Ed as [-> | [-> | ->]]; assumption. }
      destruct K as (r & [Hr Hly] & Hu). exists r. split.
      + split; auto. apply Hequiv; auto.
      + intros r' [Hr' Hb']. apply Hu. split; auto. apply Hequiv; auto.
  Qed.

  Definition node_size (d : Z) : Z := if d <? dim then ax_nnp (axes d) else 1.
  Definition geom_size (d : Z) : Z := if d <? dim then ax_m (axes d) - ax_p (axes d) else 1.
  Definition elem_size (d : Z) : Z := if d <? dim then ax_nel (axes d) else 1.

  Lemma setup_wf : forall d, 0 <= d < dim -> exists l, wf (axes d) l /\ ends_nonempty (ax_p (axes d)) (ax_m (axes d)) (ax_U (axes d)).
  Proof. intros d Hd. destruct S as (_ & _ & _ & Hax & _). destruct (Hax d Hd) as [(l & L) He]. exists l. auto. Qed.

  Lemma setup_elem_tile : boxes_tile size elem_size (fun r d => ly_elem_start (LY r) d) (fun r d => ly_elem_width (LY r) d).
  Proof.
    apply (setup_boxes (fun ly d => (ly_elem_start ly d, ly_elem_width ly d)) elem_size
      (fun i P c => dist_s P (ax_nel (axes i)) c) (fun i P c => dist_n P (ax_nel (axes i)) c)).
    - intros n c i Hi. unfold layout_of; cbn [ly_elem_start ly_elem_width]. replace (i <? dim) with true by lia. reflexivity.
    - intros i P Hi HP. unfold elem_size. replace (i <? dim) with true by lia. apply dist_tiles; lia.
    - intros n c i Hi. unfold layout_of; cbn [ly_elem_start ly_elem_width]. replace (i <? dim) with false by lia. reflexivity.
    - intros i Hi. unfold elem_size. replace (i <? dim) with false by lia. reflexivity.
  Qed.

  Lemma setup_node_tile : boxes_tile size node_size (fun r d => r_lstart (ly_node (LY r) d)) (fun r d => r_lwidth (ly_node (LY r) d)).
  Proof.
    apply (setup_boxes (fun ly d => (r_lstart (ly_node ly d), r_lwidth (ly_node ly d))) node_size
      (fun i P c => r_lstart (nrange P (axes i) c)) (fun i P c => r_lwidth (nrange P (axes i) c))).
    - intros n c i Hi. unfold layout_of; cbn [ly_node]. replace (i <? dim) with true by lia. reflexivity.
    - intros i P Hi HP. unfold node_size. replace (i <? dim) with true by lia. destruct (setup_wf i Hi) as (l & L & He).
      apply (node_tiles (axes i) l P L He HP).
    - intros n c i Hi. unfold layout_of; cbn [ly_node]. replace (i <? dim) with false by lia. reflexivity.
    - intros i Hi. unfold node_size. replace (i <? dim) with false by lia. reflexivity.
  Qed.

  Lemma setup_geom_tile : boxes_tile size geom_size (fun r d => r_lstart (ly_geom (LY r) d)) (fun r d => r_lwidth (ly_geom (LY r) d)).
  Proof.
    apply (setup_boxes (fun ly d => (r_lstart (ly_geom ly d), r_lwidth (ly_geom ly d))) geom_size
      (fun i P c => r_lstart (grange P (axes i) c)) (fun i P c => r_lwidth (grange P (axes i) c))).
    - intros n c i Hi. unfold layout_of; cbn [ly_geom]. replace (i <? dim) with true by lia. reflexivity.
    - intros i P Hi HP. unfold geom_size. replace (i <? dim) with true by lia. destruct (setup_wf i Hi) as (l & L & He).
      apply (geom_tiles (axes i) l P L He HP).
    - intros n c i Hi. unfold layout_of; cbn [ly_geom]. replace (i <? dim) with false by lia. reflexivity.
    - intros i Hi. unfold geom_size. replace (i <? dim) with false by lia. reflexivity.
  Qed.

  (** Per-rank, per-direction facts. *)
  Lemma setup_node_facts : forall r d, 0 <= r < size -> 0 <= d < 3 ->
    r_size (ly_node (LY r) d) = node_size d /\ 1 <= node_size d <= geom_size d /\
    0 <= r_gstart (ly_node (LY r) d) /\
    r_gstart (ly_node (LY r) d) <= r_lstart (ly_node (LY r) d) /\
    1 <= r_lwidth (ly_node (LY r) d) /\
    r_lstart (ly_node (LY r) d) + r_lwidth (ly_node (LY r) d) <= r_gstart (ly_node (LY r) d) + r_gwidth (ly_node (LY r) d) /\
    r_size (ly_geom (LY r) d) = geom_size d /\
    r_gstart (ly_geom (LY r) d) = r_gstart (ly_node (LY r) d) /\ r_gwidth (ly_geom (LY r) d) = r_gwidth (ly_node (LY r) d) /\
    r_lstart (ly_geom (LY r) d) = r_lstart (ly_node (LY r) d) /\
    r_gstart (ly_geom (LY r) d) <= r_lstart (ly_geom (LY r) d) /\ 1 <= r_lwidth (ly_geom (LY r) d) /\
    r_lstart (ly_geom (LY r) d) + r_lwidth (ly_geom (LY r) d) <= r_gstart (ly_geom (LY r) d) + r_gwidth (ly_geom (LY r) d).
  Proof.
    intros r d Hr Hd. destruct setup_form as (n & Hn & HL & Hdim & Hz & HP & HLY).
    pose proof (setup_wf d) as Hwf. clear S. rewrite (HLY r Hr). unfold layout_of; cbn [ly_node ly_geom]. unfold node_size, geom_size.
    destruct (d <? dim) eqn:E.
    - pose proof (pad_coords n r d Hn ltac:(lia) ltac:(lia)) as Hc. specialize (HP d ltac:(lia)).
      destruct (Hwf ltac:(lia)) as (l & L & He). clear Hwf.
      set (P := pad 1 n d) in *. set (c := pad 0 (rank_coords n r) d) in *.
      fold (es P (axes d) c). fold (ew P (axes d) c). fold (nrange P (axes d) c). fold (grange P (axes d) c).
      destruct (node_tiles (axes d) l P L He HP) as (T1 & T2 & T3). destruct (geom_tiles (axes d) l P L He HP) as (T4 & T5).
      specialize (T2 c Hc). specialize (T3 c Hc). specialize (T5 c Hc).
      pose proof (tiles_bounds _ _ _ _ T1 c Hc) as TB. cbv beta in TB.
      pose proof (tiles_bounds _ _ _ _ T4 c Hc) as TB4. cbv beta in TB4.
      destruct (wf_nnp (axes d) l L) as (s & Hs & Hnnp). pose proof L as (_ & (Hp & Hm & _) & _).
      assert (X1 : r_gstart (grange P (axes d) c) = r_gstart (nrange P (axes d) c)) by reflexivity.
      assert (X2 : r_gwidth (grange P (axes d) c) = r_gwidth (nrange P (axes d) c)) by reflexivity.
      assert (X3 : r_lstart (grange P (axes d) c) = r_lstart (nrange P (axes d) c)) by reflexivity.
      assert (X4 : r_size (nrange P (axes d) c) = ax_nnp (axes d)) by reflexivity.
      assert (X5 : r_gstart (nrange P (axes d) c) = r_lstart (nrange P (axes d) c)) by reflexivity.
      destruct T5 as (T5a & T5b & T5c & T5d).
      assert (Hnn : 1 <= ax_nnp (axes d) <= ax_m (axes d) - ax_p (axes d)) by (destruct (ax_periodic (axes d)); lia).
      split; [exact X4|]. split; [exact Hnn|]. split; [lia|]. split; [lia|]. split; [lia|]. split; [lia|].
      split; [lia|]. split; [lia|]. split; [lia|]. split; [lia|]. split; [lia|]. split; lia.
    - unfold unit_range; cbn [r_size r_lstart r_lwidth r_gstart r_gwidth]. lia.
  Qed.

  Lemma setup_world : forall bs, 1 <= bs -> grid_world size bs node_size (fun r => grid_of bs (ly_node (LY r))).
  Proof.
    intros bs Hbs. destruct setup_node_tile as [T1 T2].
    assert (Hs : 1 <= size) by (destruct S as (_ & _ & H & _); exact H).
    split; [auto|]. split; [auto|]. split; [|split].
    - intros d Hd. pose proof (setup_node_facts 0 d ltac:(lia) Hd) as K. apply K.
    - intros r Hr. split; [reflexivity|]. intros d Hd. cbn [grid_of gr_sizes gr_lstart gr_lwidth gr_gwidth].
      pose proof (setup_node_facts r d Hr Hd) as K. specialize (T1 r Hr d Hd). unfold zero3 in T1.
      split; [apply K|]. lia.
    - exact T2.
  Qed.

  Lemma setup_natural : forall bs, 
    (forall r, 0 <= r < size -> subbox (fun d => r_lstart (ly_geom (LY r) d)) (fun d => r_lwidth (ly_geom (LY r) d))
       (fun d => zero3 d + gr_gstart (grid_of bs (ly_node (LY r))) d) (gr_gwidth (grid_of bs (ly_node (LY r))))) /\
    (forall d, 0 <= d < 3 -> 0 <= zero3 d /\ zero3 d + node_size d <= geom_size d) /\
    (forall r d, 0 <= r < size -> 0 <= d < 3 -> - node_size d <= gr_gstart (grid_of bs (ly_node (LY r))) d) /\
    (forall r, 0 <= r < size -> subbox (gr_lstart (grid_of bs (ly_node (LY r)))) (gr_lwidth (grid_of bs (ly_node (LY r))))
        (gr_gstart (grid_of bs (ly_node (LY r)))) (gr_gwidth (grid_of bs (ly_node (LY r))))).
  Proof.
    intros bs. unfold zero3. split; [|split; [|split]].
    - intros r Hr d Hd. cbn [grid_of gr_gstart gr_gwidth]. pose proof (setup_node_facts r d Hr Hd). lia.
    - intros d Hd. assert (Hs : 1 <= size) by (destruct S as (_ & _ & H & _); exact H).
      pose proof (setup_node_facts 0 d ltac:(lia) Hd). lia.
    - intros r d Hr Hd. cbn [grid_of gr_gstart]. pose proof (setup_node_facts r d Hr Hd). lia.
    - intros r Hr d Hd. cbn [grid_of gr_lstart gr_lwidth gr_gstart gr_gwidth]. pose proof (setup_node_facts r d Hr Hd). lia.
  Qed.
End Setup.
