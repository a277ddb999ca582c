(** Property theorems about distributed grids and vector transfers: C15, C16, C17. *)
From Coq Require Import ZArith List Bool Lia Reals Lra Permutation.
From Coq Require Import ZifyBool ZifyNat.
From Verif Require Import Prelude AxisModel AxisSpec PartModel PartSpec PartProofs SetupModel SetupProofs SetupProps
  Box GridModel GridSpec GridProofs GridProofs2 GridSetup.
Import ListNotations.
Open Scope Z_scope.

(** * The grids built by IGASetUp satisfy the hypotheses used below *)
(** Owned boxes tile the node grid and lie in the ghosted boxes, which start at nonnegative
    coordinates; owned geometry boxes tile the geometry grid and lie in the ghosted boxes. *)
Theorem C15_setup_gives_distributed_grids :
  forall (O : KnotOrd) g2 g3 maxint size dim (axes : Z -> axis O) user (LY : Z -> layout) dof,
  setup_ok g2 g3 maxint size dim axes user LY -> 1 <= dof ->
  let G := fun r => grid_of dof (ly_node (LY r)) in
  let N := fun d => if d <? dim then ax_nnp (axes d) else 1 in
  let M := fun d => if d <? dim then ax_m (axes d) - ax_p (axes d) else 1 in
  let ast := fun r d => r_lstart (ly_geom (LY r) d) in
  let awd := fun r d => r_lwidth (ly_geom (LY r) d) in
  grid_world size dof N G /\
  (forall r, 0 <= r < size -> subbox (gr_lstart (G r)) (gr_lwidth (G r)) (gr_gstart (G r)) (gr_gwidth (G r))) /\
  (forall r d, 0 <= r < size -> 0 <= d < 3 -> 0 <= gr_gstart (G r) d) /\
  (forall d, 0 <= d < 3 -> N d <= M d) /\
  boxes_tile size M ast awd /\
  (forall r, 0 <= r < size -> subbox (ast r) (awd r) (gr_gstart (G r)) (gr_gwidth (G r))).
Proof.
  intros O g2 g3 maxint size dim axes user LY dof S Hdof G N M ast awd.
  destruct (setup_natural _ _ _ _ _ _ _ _ S dof) as (A & B & C & D).
  split; [exact (setup_world _ _ _ _ _ _ _ _ S dof Hdof)|]. split; [exact D|].
  split; [intros r d Hr Hd; unfold G; cbn [grid_of gr_gstart]; pose proof (setup_node_facts _ _ _ _ _ _ _ _ S r d Hr Hd) as K; apply K|].
  split; [intros d Hd; specialize (B d Hd); unfold zero3, node_size, geom_size in B; unfold N, M; lia|].
  split; [exact (setup_geom_tile _ _ _ _ _ _ _ _ S)|].
  intros r Hr d Hd. specialize (A r Hr d Hd). unfold zero3, G in *. cbn [grid_of gr_gstart gr_gwidth] in *. unfold ast, awd. lia.
Qed.
Print Assumptions C15_setup_gives_distributed_grids.

(** * C15 *)
(** [off G r] is the first global block of rank r; [ao size G x] the global block of natural index x;
    [lin N (i,j,k)] = i + N0 (j + N1 k) the natural (lexicographic) index of node (i,j,k). *)
Theorem C15_numbering_is_permutation :
  forall size bs (N : Z -> Z) (G : Z -> grid), grid_world size bs N G ->
  let total := N 0 * (N 1 * N 2) in
  (* natural indices are in bijection with nodes, global indices with natural indices *)
  (forall t, in_box zero3 N t -> 0 <= lin N t < total /\ 0 <= ao size G (lin N t) < total) /\
  (forall b, 0 <= b < total -> exists! x, 0 <= x < total /\ ao size G x = b) /\
  (forall b, 0 <= b < total -> exists! t, in_box zero3 N t /\ ao size G (lin N t) = b) /\
  (* rank r owns the consecutive indices off r .. off (r+1)-1, the ranks follow each other *)
  off G 0 = 0 /\ off G size = total /\
  (forall r, 0 <= r < size -> off G (r+1) = off G r + gr_lwidth (G r) 0 * (gr_lwidth (G r) 1 * gr_lwidth (G r) 2)) /\
  (forall r t, 0 <= r < size -> in_box zero3 N t ->
     (in_box (gr_lstart (G r)) (gr_lwidth (G r)) t <-> off G r <= ao size G (lin N t) < off G (r+1))) /\
  (* and numbers its own box lexicographically *)
  (forall r t, 0 <= r < size -> in_box (gr_lstart (G r)) (gr_lwidth (G r)) t ->
     ao size G (lin N t) = off G r + lin (gr_lwidth (G r)) (tsub (gr_lstart (G r)) t)).
Proof.
  intros size bs N G W total.
  assert (Etot : total = vol N) by (unfold total, vol; ring).
  assert (EL : forall r t, 0 <= r < size -> in_box (gr_lstart (G r)) (gr_lwidth (G r)) t ->
     ao size G (lin N t) = off G r + lin (gr_lwidth (G r)) (tsub (gr_lstart (G r)) t) /\
     0 <= lin (gr_lwidth (G r)) (tsub (gr_lstart (G r)) t) < nlocal (G r)).
  { intros r [[i j] k] Hr Ht. unfold in_box in Ht. destruct Ht as (Hi & Hj & Hk).
    assert (HR : 0 <= lin (gr_lwidth (G r)) (tsub (gr_lstart (G r)) (i,j,k)) < nlocal (G r)).
    { unfold tsub, nlocal. apply lin_range; lia. }
    split; [|exact HR].
    destruct (ao_local _ _ _ _ W r _ 0 Hr HR) as [K _]. rewrite <- K. f_equal.
    unfold local_indices.
    rewrite (nth_indep _ 0 (lin (gr_sizes (G r)) (i,j,k))).
    - rewrite map_nth. unfold tsub. rewrite nth_box by lia.
      pose proof (w_dir _ _ _ _ W r) as WD. unfold lin.
      destruct (WD 0 Hr ltac:(lia)) as (E0 & _). destruct (WD 1 Hr ltac:(lia)) as (E1 & _). rewrite E0, E1. ring.
    - pose proof (len_local _ _ _ _ W r Hr) as HLL. unfold local_indices in HLL. lia. }
  rewrite Etot.
  assert (HB : forall b, 0 <= b < vol N -> exists! x, 0 <= x < vol N /\ ao size G x = b) by (apply (ao_bij _ _ _ _ W)).
  split; [|split; [exact HB|split; [|split; [|split; [|split; [|split]]]]]].
  - intros t Ht. pose proof (lin_in_range N t Ht) as K. split; auto. apply (ao_range _ _ _ _ W); auto.
  - intros b Hb. destruct (HB b Hb) as (x & [Hx Ex] & Hu).
    pose proof (w_N _ _ _ _ W 0 ltac:(lia)). pose proof (w_N _ _ _ _ W 1 ltac:(lia)). pose proof (w_N _ _ _ _ W 2 ltac:(lia)).
    destruct (lin_unlin N x) as [U1 U2]; [lia|lia|lia|auto|].
    exists (unlin N x). split; [split; [exact U2|rewrite U1; exact Ex]|].
    intros [[i j] k] [Ht Et]. pose proof (lin_in_range N _ Ht) as K. rewrite (Hu _ (conj K Et)).
    unfold in_box, zero3 in Ht. apply unlin_lin; lia.
  - apply off_0.
  - apply (off_size _ _ _ _ W).
  - intros r Hr. rewrite off_S by lia. unfold nlocal, vol. ring.
  - intros r t Hr Ht. split.
    + intros H. destruct (EL r t Hr H) as [E R]. rewrite E, off_S by lia. lia.
    + intros H. destruct (proj2 (proj2 (proj2 (proj2 W))) t Ht) as (r' & [Hr' Hb'] & _).
      destruct (EL r' t Hr' Hb') as [E R]. rewrite off_S in H by lia.
      assert (r = r'); [|subst; auto].
      apply (block_owner_unique _ _ _ _ W r (ao size G (lin N t) - off G r) r' (lin (gr_lwidth (G r')) (tsub (gr_lstart (G r')) t))); auto; lia.
  - intros r t Hr Ht. apply (EL r t Hr Ht).
Qed.
Print Assumptions C15_numbering_is_permutation.

(** * C16 *)
(** Local block of the node at offset (i,j,k) in the ghosted box of rank r. *)
Theorem C16_local_to_global_map :
  forall size bs (N : Z -> Z) (G : Z -> grid) r, grid_world size bs N G -> 0 <= r < size ->
  (forall d, 0 <= d < 3 -> - N d <= gr_gstart (G r) d) ->
  (* every local index is that of a node of the ghosted box *)
  (forall k, 0 <= k < gr_gwidth (G r) 0 * (gr_gwidth (G r) 1 * gr_gwidth (G r) 2) ->
     exists t, in_box zero3 (gr_gwidth (G r)) t /\ k = lin (gr_gwidth (G r)) t /\
       0 <= lgmap size G r k < N 0 * (N 1 * N 2)) /\
  forall i j k, in_box zero3 (gr_gwidth (G r)) (i, j, k) ->
    let node := (gr_gstart (G r) 0 + i, gr_gstart (G r) 1 + j, gr_gstart (G r) 2 + k) in
    lgmap size G r (lin (gr_gwidth (G r)) (i, j, k)) = ao size G (lin N (modbox N node)) /\
    in_box zero3 N (modbox N node) /\
    (in_box zero3 N node -> modbox N node = node).
Proof.
  intros size bs N G r W Hr Hg. split.
  - intros k Hk.
    assert (Hk' : 0 <= k < nghost G r).
    { unfold nghost, vol. replace (gr_gwidth (G r) 0 * gr_gwidth (G r) 1 * gr_gwidth (G r) 2) with (gr_gwidth (G r) 0 * (gr_gwidth (G r) 1 * gr_gwidth (G r) 2)) by ring. exact Hk. }
    assert (Hpos : forall d, 0 <= d < 3 -> 0 < gr_gwidth (G r) d).
    { pose proof (w_dir _ _ _ _ W r) as WD.
      destruct (WD 0 Hr ltac:(lia)) as (_ & _ & _ & _ & P0). destruct (WD 1 Hr ltac:(lia)) as (_ & _ & _ & _ & P1). destruct (WD 2 Hr ltac:(lia)) as (_ & _ & _ & _ & P2).
      unfold nghost, vol in Hk'. clear WD Hg. revert P0 P1 P2 Hk'. clear.
      intros P0 P1 P2 [K1 K2].
      assert (Hne : gr_gwidth (G r) 0 <> 0 /\ gr_gwidth (G r) 1 <> 0 /\ gr_gwidth (G r) 2 <> 0).
      { split; [|split]; intros E; rewrite E in K2; rewrite ?Z.mul_0_r, ?Z.mul_0_l, ?Z.mul_0_r in K2; lia. }
      intros d Hd. assert (Ed : d = 0 \/ d = 1 \/ d = 2) by lia. destruct Ed as [-> | [-> | ->]]; lia. }
    destruct (lin_unlin (gr_gwidth (G r)) k) as [U1 U2]; [apply Hpos; lia|apply Hpos; lia|apply Hpos; lia|exact Hk'|].
    exists (unlin (gr_gwidth (G r)) k). split; [exact U2|]. split; [auto|].
    pose proof (lgmap_range _ _ _ _ W r k Hr Hg Hk') as K. unfold vol in K.
    replace (N 0 * (N 1 * N 2)) with (N 0 * N 1 * N 2) by ring. exact K.
  - intros i j k Hin node. unfold in_box, zero3 in Hin. split; [|split].
    + apply (lgmap_coords _ _ _ _ W); auto; lia.
    + apply (modbox_in _ _ _ _ W).
    + apply modbox_id.
Qed.
Print Assumptions C16_local_to_global_map.

Lemma triple_eqb_eq : forall t u, triple_eqb t u = true <-> t = u.
Proof.
  intros [[i j] k] [[i' j'] k']. unfold triple_eqb. rewrite !andb_true_iff, !Z.eqb_eq. split.
  - intros [[-> ->] ->]. reflexivity.
  - intros E. inversion E. auto.
Qed.

Lemma rsum_box : forall (f : Z -> R) (s w : Z -> Z), 0 <= w 0 -> 0 <= w 1 -> 0 <= w 2 ->
  rsum f (zseq 0 (vol w)) = rsum (fun t => f (lin w (tsub s t))) (box s w).
Proof.
  intros f s w P0 P1 P2. rewrite <- (rsum_map _ _ f (fun t => lin w (tsub s t))). apply rsum_perm.
  assert (HB : forall i j k, In (i,j,k) (box s w) -> in_box zero3 w (tsub s (i,j,k))).
  { intros i j k H. apply In_box in H. unfold in_box, zero3, tsub in *. lia. }
  assert (HL : Z.of_nat (length (box s w)) = vol w).
  { apply len_box3. intros d Hd. assert (Ed : d = 0 \/ d = 1 \/ d = 2) by lia. destruct Ed as [-> | [-> | ->]]; auto. }
  symmetry. apply NoDup_Permutation_bis.
  - apply NoDup_map_inj; [|apply NoDup_box]. intros [[i j] k] [[i' j'] k'] H H' E.
    apply lin_inj in E; [|apply HB; auto|apply HB; auto]. unfold tsub in E. inversion E. f_equal; [f_equal|]; lia.
  - rewrite map_length, length_zseq. lia.
  - intros x Hx. apply in_map_iff in Hx. destruct Hx as ([[i j] k] & <- & H). apply HB in H.
    apply in_zseq. pose proof (lin_in_range w _ H). lia.
Qed.

(** * C17 *)
(** [order], [order']: any order in which the ranks' messages arrive; [junk...]: uninitialised memory;
    V0, W0, L0: previous contents of the destination. *)
Theorem C17_global_local_global :
  forall A size bs (N : Z -> Z) (G : Z -> grid) junk order (V V0 : Z -> A) (L0 : Z -> Z -> A),
  grid_world size bs N G -> Permutation order (zseq 0 size) ->
  (forall r, 0 <= r < size -> subbox (gr_lstart (G r)) (gr_lwidth (G r)) (gr_gstart (G r)) (gr_gwidth (G r))) ->
  (forall r d, 0 <= r < size -> 0 <= d < 3 -> - N d <= gr_gstart (G r) d) ->
  let L := fun r => global_to_local size G V r (L0 r) in
  (* the local copy of a node holds the node's global value *)
  (forall r i j k c, 0 <= r < size -> in_box zero3 (gr_gwidth (G r)) (i, j, k) -> 0 <= c < bs ->
     L r (bs * lin (gr_gwidth (G r)) (i, j, k) + c) =
     V (bs * ao size G (lin N (modbox N (gr_gstart (G r) 0 + i, gr_gstart (G r) 1 + j, gr_gstart (G r) 2 + k))) + c)) /\
  (* and INSERT brings the vector back unchanged *)
  forall e, 0 <= e < bs * (N 0 * (N 1 * N 2)) -> local_to_global_insert G junk order L V0 e = V e.
Proof.
  intros A size bs N G junk order V V0 L0 W Ho Hs Hg L. split.
  - intros r i j k c Hr Hin Hc. unfold L, in_box, zero3 in *.
    rewrite (g2l_value _ _ _ _ W); auto.
    + f_equal. f_equal. f_equal. apply (lgmap_coords _ _ _ _ W); auto; lia.
    + unfold nghost. apply lin_range; lia.
  - intros e He. apply (g2l_l2g_id _ _ _ _ W); auto. unfold vol.
    replace (N 0 * N 1 * N 2) with (N 0 * (N 1 * N 2)) by ring. exact He.
Qed.
Print Assumptions C17_global_local_global.

(** ADD_VALUES: component c of the global block of node t receives the sum, over all ranks and all
    nodes of their ghosted boxes that are copies of node t, of the local values. *)
Theorem C17_add_sums_all_copies :
  forall size bs (N : Z -> Z) (G : Z -> grid) order (L : Z -> Z -> R) (V : Z -> R),
  grid_world size bs N G -> Permutation order (zseq 0 size) ->
  (forall r d, 0 <= r < size -> 0 <= d < 3 -> - N d <= gr_gstart (G r) d) ->
  forall t c, in_box zero3 N t -> 0 <= c < bs ->
  local_to_global_add size G order L V (bs * ao size G (lin N t) + c) =
  (V (bs * ao size G (lin N t) + c)%Z +
   rsum (fun r => rsum (fun node =>
     if triple_eqb (modbox N node) t then L r (bs * lin (gr_gwidth (G r)) (tsub (gr_gstart (G r)) node) + c)%Z else 0%R)
     (box (gr_gstart (G r)) (gr_gwidth (G r)))) (zseq 0 size))%R.
Proof.
  intros size bs N G order L V W Ho Hg t c Ht Hc.
  pose proof (lin_in_range N t Ht) as Hl. pose proof (ao_range _ _ _ _ W _ Hl) as Hb.
  rewrite (l2g_add_value _ _ _ _ W) by (auto; lia). f_equal. apply rsum_ext. intros r Hr. apply in_zseq in Hr.
  assert (Hr' : 0 <= r < size) by lia. clear Hr.
  pose proof (w_dir _ _ _ _ W r) as WD.
  destruct (WD 0 Hr' ltac:(lia)) as (_ & _ & _ & _ & P0). destruct (WD 1 Hr' ltac:(lia)) as (_ & _ & _ & _ & P1). destruct (WD 2 Hr' ltac:(lia)) as (_ & _ & _ & _ & P2).
  unfold nghost. rewrite (rsum_box _ (gr_gstart (G r)) (gr_gwidth (G r))) by auto.
  apply rsum_ext. intros [[i j] k] Hk. apply In_box in Hk. unfold in_box in Hk. unfold tsub at 1.
  rewrite (lgmap_coords _ _ _ _ W) by (auto; lia).
  pose proof (modbox_in _ _ _ _ W (i, j, k)) as Hm.
  replace (gr_gstart (G r) 0 + (i - gr_gstart (G r) 0)) with i by lia.
  replace (gr_gstart (G r) 1 + (j - gr_gstart (G r) 1)) with j by lia.
  replace (gr_gstart (G r) 2 + (k - gr_gstart (G r) 2)) with k by lia.
  set (q := modbox N (i,j,k)) in *.
  assert (EQ : (ao size G (lin N q) =? ao size G (lin N t)) = triple_eqb q t).
  { apply Bool.eq_iff_eq_true. rewrite Z.eqb_eq, triple_eqb_eq. split; [|intros ->; auto].
    intros E. apply (ao_inj _ _ _ _ W) in E; [|apply lin_in_range; auto|auto].
    eapply lin_inj; eauto. }
  rewrite EQ. reflexivity.
Qed.
Print Assumptions C17_add_sums_all_copies.

(** Natural vectors ([M d] nodes in direction d; natural node = global node + shift; shift is 0 with
    quadrature): every entry of the natural vector is the value of its node wrapped modulo the grid. *)
Theorem C17_global_natural :
  forall A size bs (N : Z -> Z) (G : Z -> grid) (shift M : Z -> Z) (ast awd : Z -> Z -> Z),
  grid_world size bs N G -> boxes_tile size M ast awd ->
  (forall d, 0 <= d < 3 -> 0 <= shift d /\ shift d + N d <= M d) ->
  (forall r, 0 <= r < size -> subbox (ast r) (awd r) (fun d => shift d + gr_gstart (G r) d) (gr_gwidth (G r))) ->
  (forall r d, 0 <= r < size -> 0 <= d < 3 -> - N d <= gr_gstart (G r) d) ->
  forall junkg junkn order order' (V V0 X X0 : Z -> A),
  Permutation order (zseq 0 size) -> Permutation order' (zseq 0 size) ->
  (* each transfer, entry by entry *)
  (forall t c, in_box zero3 N t -> 0 <= c < bs ->
     natural_to_global G shift M order X V0 (bs * ao size G (lin N t) + c) = X (bs * lin M (tadd shift t) + c)) /\
  (forall t c, in_box zero3 M t -> 0 <= c < bs ->
     global_to_natural size G shift M ast awd junkg junkn order V X0 (bs * lin M t + c)
     = V (bs * ao size G (lin N (modbox N (tsub shift t))) + c)) /\
  (* global -> natural -> global is the identity *)
  (forall e, 0 <= e < bs * (N 0 * (N 1 * N 2)) ->
     natural_to_global G shift M order' (global_to_natural size G shift M ast awd junkg junkn order V X0) V0 e = V e) /\
  (* natural -> global -> natural is the identity on vectors whose periodic copies agree *)
  ((forall t c, in_box zero3 M t -> 0 <= c < bs ->
      X (bs * lin M (tadd shift (modbox N (tsub shift t))) + c) = X (bs * lin M t + c)) ->
   forall e, 0 <= e < bs * (M 0 * (M 1 * M 2)) ->
     global_to_natural size G shift M ast awd junkg junkn order (natural_to_global G shift M order' X V0) X0 e = X e).
Proof.
  intros A size bs N G shift M ast awd W HM Hsh Hvis Hlow junkg junkn order order' V V0 X X0 Ho Ho'.
  split; [|split; [|split]].
  - intros. eapply (n2g_value _ _ _ _ W); eauto.
  - intros. eapply (g2n_value _ _ _ _ W); eauto.
  - intros e He. apply (g2n_n2g_id _ _ _ _ W); auto. unfold vol.
    replace (N 0 * N 1 * N 2) with (N 0 * (N 1 * N 2)) by ring. exact He.
  - intros Hcons e He. pose proof (w_bs _ _ _ _ W) as Hbs.
    assert (HMp : forall d, 0 <= d < 3 -> 0 < M d).
    { intros d Hd. pose proof (w_N _ _ _ _ W d Hd). pose proof (Hsh d Hd). lia. }
    assert (Hb : 0 <= e / bs < vol M).
    { unfold vol. split; [apply Z.div_pos; lia|]. apply Z.div_lt_upper_bound; [lia|].
      replace (M 0 * M 1 * M 2) with (M 0 * (M 1 * M 2)) by ring. lia. }
    destruct (lin_unlin M (e/bs)) as [U1 U2]; [apply HMp; lia|apply HMp; lia|apply HMp; lia|exact Hb|].
    pose proof (Z.mod_pos_bound e bs ltac:(lia)) as Hc.
    assert (Ee : e = bs * lin M (unlin M (e/bs)) + e mod bs) by (rewrite U1; apply Z.div_mod; lia).
    rewrite Ee, (n2g_g2n_value _ _ _ _ W) by auto. apply Hcons; auto.
Qed.
Print Assumptions C17_global_natural.

(** After IGASetUp with quadrature: no shift, all hypotheses above hold, and if no axis is periodic
    both round trips are the identity on every vector. *)
Theorem C17_setup_round_trips :
  forall A (O : KnotOrd) g2 g3 maxint size dim (axes : Z -> axis O) user (LY : Z -> layout) dof,
  setup_ok g2 g3 maxint size dim axes user LY -> 1 <= dof ->
  let G := fun r => grid_of dof (ly_node (LY r)) in
  let N := fun d => if d <? dim then ax_nnp (axes d) else 1 in
  let M := fun d => if d <? dim then ax_m (axes d) - ax_p (axes d) else 1 in
  let ast := fun r d => r_lstart (ly_geom (LY r) d) in
  let awd := fun r d => r_lwidth (ly_geom (LY r) d) in
  forall junk junkg junkn order order' (V V0 X X0 : Z -> A) (L0 : Z -> Z -> A),
  Permutation order (zseq 0 size) -> Permutation order' (zseq 0 size) ->
  (forall e, 0 <= e < dof * (N 0 * (N 1 * N 2)) ->
     local_to_global_insert G junk order (fun r => global_to_local size G V r (L0 r)) V0 e = V e /\
     natural_to_global G zero3 M order' (global_to_natural size G zero3 M ast awd junkg junkn order V X0) V0 e = V e) /\
  ((forall i, 0 <= i < dim -> ax_periodic (axes i) = false) ->
   forall e, 0 <= e < dof * (M 0 * (M 1 * M 2)) ->
     global_to_natural size G zero3 M ast awd junkg junkn order (natural_to_global G zero3 M order' X V0) X0 e = X e).
Proof.
  intros A O g2 g3 maxint size dim axes user LY dof S Hdof G N M ast awd junk junkg junkn order order' V V0 X X0 L0 Ho Ho'.
  assert (K : grid_world size dof N G /\
    (forall r, 0 <= r < size -> subbox (gr_lstart (G r)) (gr_lwidth (G r)) (gr_gstart (G r)) (gr_gwidth (G r))) /\
    (forall r d, 0 <= r < size -> 0 <= d < 3 -> 0 <= gr_gstart (G r) d) /\
    (forall d, 0 <= d < 3 -> N d <= M d) /\ boxes_tile size M ast awd /\
    (forall r, 0 <= r < size -> subbox (ast r) (awd r) (gr_gstart (G r)) (gr_gwidth (G r))))
    by exact (C15_setup_gives_distributed_grids O g2 g3 maxint size dim axes user LY dof S Hdof).
  destruct K as (W & Q1 & Q2 & Q3 & Q4 & Q5).
  assert (Hlow : forall r d, 0 <= r < size -> 0 <= d < 3 -> - N d <= gr_gstart (G r) d).
  { intros r d Hr Hd. pose proof (Q2 r d Hr Hd). pose proof (w_N _ _ _ _ W d Hd). lia. }
  assert (Hsh : forall d, 0 <= d < 3 -> 0 <= zero3 d /\ zero3 d + N d <= M d).
  { intros d Hd. specialize (Q3 d Hd). unfold zero3. lia. }
  assert (Hvis : forall r, 0 <= r < size -> subbox (ast r) (awd r) (fun d => zero3 d + gr_gstart (G r) d) (gr_gwidth (G r))).
  { intros r Hr d Hd. specialize (Q5 r Hr d Hd). unfold zero3. cbv beta. lia. }
  destruct (C17_global_natural A size dof N G zero3 M ast awd W Q4 Hsh Hvis Hlow junkg junkn order order' V V0 X X0 Ho Ho') as (_ & _ & R1 & R2).
  split.
  - intros e He. split; [|apply R1; auto].
    apply (C17_global_local_global A size dof N G junk order V V0 L0 W Ho Q1 Hlow); auto.
  - intros Hper. apply R2. intros [[i j] k] c Ht Hc.
    assert (EN : forall d, 0 <= d < 3 -> N d = M d).
    { intros d Hd. unfold N, M. destruct (d <? dim) eqn:E; auto.
      destruct (setup_wf _ _ _ _ _ _ _ _ S d ltac:(lia)) as (l & L & _). destruct (wf_nnp (axes d) l L) as (s & Hs & Hnnp).
      rewrite (Hper d ltac:(lia)) in Hnnp. exact Hnnp. }
    f_equal. f_equal. f_equal. f_equal.
    assert (E1 : tsub zero3 (i,j,k) = (i,j,k)) by (unfold tsub, zero3; f_equal; [f_equal|]; lia).
    rewrite E1. rewrite modbox_id.
    + reflexivity.
    + unfold in_box, zero3 in *. rewrite (EN 0), (EN 1), (EN 2) by lia. exact Ht.
Qed.
Print Assumptions C17_setup_round_trips.

(** * A concrete case: the 6-process example of C12 with 2 components per node *)
Definition ex_LY (r : Z) : layout := layout_of 2 ex_axes [3; 2] (rank_coords [3; 2] r).
Definition ex_G (r : Z) : grid := grid_of 2 (ly_node (ex_LY r)).

Lemma ex_setup_ok : setup_ok exact_g2 exact_g3 (2^31-1) 6 2 ex_axes [-1;-1] ex_LY.
Proof.
  split; [|split; [|split; [lia|split; [exact ex_axes_ready|]]]].
  - intros a b c. unfold exact_g2. pose proof (Z.sqrt_nonneg (4*b*a/c)). apply Z.div_pos; lia.
  - intros a b c d. unfold exact_g3, cbrt. apply Z.div_pos; [|lia].
    assert (K : forall f c x, 0 <= c -> 0 <= cbrt_up f c x).
    { induction f as [|f IH]; intros c0 x Hc0; cbn [cbrt_up]; auto.
      destruct ((c0+1)*(c0+1)*(c0+1) <=? x); auto. apply IH. lia. }
    pose proof (K (Z.to_nat (8*(b*b)*a/(c*d))) 0 (8*(b*b)*a/(c*d)) ltac:(lia)). lia.
  - intros r Hr. unfold stage1, ex_LY.
    assert (E : r = 0 \/ r = 1 \/ r = 2 \/ r = 3 \/ r = 4 \/ r = 5) by lia.
    destruct E as [-> | [-> | [-> | [-> | [-> | ->]]]]];
    match goal with |- context [partition ?a ?b ?c ?d ?r ?e ?f] =>
      let v := eval vm_compute in (partition a b c d r e f) in
      assert (E : partition a b c d r e f = v) by (vm_compute; reflexivity); rewrite E end; reflexivity.
Qed.

Example C15_C16_C17_example :
  setup_ok exact_g2 exact_g3 (2^31-1) 6 2 ex_axes [-1;-1] ex_LY /\
  (* rank 4 owns the 12 global blocks 36..47; natural index of node (3,3) is 27 *)
  (off ex_G 4, off ex_G 5, ao 6 ex_G 27) = (36, 48, 36) /\
  (* rank 5's ghosted box reaches beyond the periodic end: local block 2 is node (8,3) = node (0,3) *)
  (gr_gstart (ex_G 5) 0, gr_gwidth (ex_G 5) 0, lgmap 6 ex_G 5 2, ao 6 ex_G (0 + 8*3)) = (6, 4, 24, 24) /\
  (* global -> local: component 1 of that block *)
  global_to_local 6 ex_G (fun e => 100 + e) 5 (fun _ => 0) (2*2+1) = 100 + (2*24+1).
Proof.
  split; [exact ex_setup_ok|vm_compute; repeat split].
Qed.
