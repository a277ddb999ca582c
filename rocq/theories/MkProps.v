(** C129: the mask of -iga_set_bddc_minimal. *)
From Coq Require Import ZArith List Bool Lia.
From Coq Require Import ZifyBool.
From Verif Require Import Prelude AxisModel AxisSpec AxisProofs AxisInitModel AxisProofs2 PartModel PartSpec PartProofs SetupModel SetupProofs SetupProps
  MkModel MkSpec.
Import ListNotations.
Open Scope Z_scope.

Lemma filter_none : forall A (f : A -> bool) l, (forall x, In x l -> f x = false) -> filter f l = [].
Proof. induction l as [|a l IH]; intros H; cbn; auto. rewrite H by (left; auto). apply IH. intros; apply H; right; auto. Qed.

(** A predicate that only holds at r-1 and r. *)
Lemma count_two : forall (f : Z -> bool) P r, 0 <= r < P -> (forall q, 0 <= q < P -> q <> r -> q <> r - 1 -> f q = false) ->
  Z.of_nat (length (filter f (zseq 0 P))) = (if (1 <=? r) && f (r-1) then 1 else 0) + (if f r then 1 else 0).
Proof.
  intros f P r Hr H.
  replace P with (r + (1 + (P - r - 1))) by lia. rewrite zseq_app by lia. rewrite zseq_app by lia.
  rewrite !filter_app, !app_length.
  rewrite (filter_none _ f (zseq (0 + r + 1) (P - r - 1))).
  2:{ intros q Hq. apply in_zseq in Hq. apply H; lia. }
  change (zseq (0 + r) 1) with [0 + r + Z.of_nat 0]. replace (0 + r + Z.of_nat 0) with r by lia.
  assert (E : Z.of_nat (length (filter f (zseq 0 r))) = if (1 <=? r) && f (r - 1) then 1 else 0).
  { destruct (Z.leb_spec 1 r) as [H1|H1]; cbn [andb].
    - replace r with (r - 1 + 1) at 1 by lia. rewrite zseq_snoc by lia. rewrite filter_app, app_length.
      rewrite filter_none. 2:{ intros q Hq. apply in_zseq in Hq. apply H; lia. }
      replace (0 + (r - 1)) with (r - 1) by lia. cbn [filter]. destruct (f (r-1)); reflexivity.
    - rewrite zseq_nil by lia. reflexivity. }
  cbn [filter length]. destruct (f r); cbn [length]; lia.
Qed.

Section Line.
  Variable P : Z.
  Variable N : Z -> Z -> range.
  Variables b e : Z -> Z.
  (** One direction: the ranges of process q are the ones of the line, the other directions have one node. *)
  Hypothesis HN : forall q, 0 <= q < P ->
    r_lstart (N q 0) = b q /\ r_lwidth (N q 0) = b (q+1) - b q /\ r_gstart (N q 0) = b q /\ r_gwidth (N q 0) = e q - b q /\
    N q 1 = unit_range /\ N q 2 = unit_range.
  Hypothesis Hok : line_ok P b e.

  Lemma b_mono : forall q r, 0 <= q -> q <= r -> r <= P -> b q + (r - q) <= b r.
  Proof using HN Hok.
    destruct Hok as (_ & Hb & _). intros q r Hq Hqr. revert r Hqr.
    apply (Zlt_lower_bound_ind (fun r => r <= P -> b q + (r - q) <= b r)). intros r IH Hr HrP.
    destruct (Z.eq_dec q r) as [->|]; [lia|]. specialize (IH (r-1) ltac:(lia) ltac:(lia)).
    specialize (Hb (r-1) ltac:(lia)). replace (r - 1 + 1) with r in Hb by lia. lia.
  Qed.
  Lemma owner : forall x, b 0 <= x < b P -> exists r, 0 <= r < P /\ b r <= x < b (r+1).
  Proof using HN Hok.
    destruct Hok as (HP & _). intros x Hx.
    assert (K : forall k, 0 <= k -> k <= P -> x < b k -> exists r, 0 <= r < P /\ b r <= x < b (r+1)).
    { apply (natlike_ind (fun k => k <= P -> x < b k -> exists r, 0 <= r < P /\ b r <= x < b (r+1))); [intros; lia|].
      intros k Hk IH Hk' Hxk. destruct (Z_lt_le_dec x (b k)); [apply IH; lia|]. exists k. unfold Z.succ in *. lia. }
    apply (K P); lia.
  Qed.

  Lemma ghost_1d : forall q x, 0 <= q < P -> in_ghost (N q) (fun d => if d =? 0 then x else 0) = (b q <=? x) && (x <? e q).
  Proof using HN.
    intros q x Hq. destruct (HN q Hq) as (_ & _ & G1 & G2 & E1 & E2). unfold in_ghost. cbn [forallb].
    rewrite E1, E2, G1, G2. change (0 =? 0) with true. change (1 =? 0) with false. change (2 =? 0) with false. cbv iota.
    cbn [unit_range r_gstart r_gwidth]. lia.
  Qed.
  Lemma marked_1d : forall q x, 0 <= q < P -> b (q+1) <= e q -> b q < b (q+1) ->
    marked 1 (N q) (local_pos (N q) (fun d => if d =? 0 then x else 0)) =
    (1 <? e q - b q) && (x =? e q - 1 - (e q - b (q+1)) / 2).
  Proof using HN.
    intros q x Hq He Hb. destruct (HN q Hq) as (L1 & L2 & G1 & G2 & E1 & E2).
    unfold marked, layer, own_width, mk_w1, mk_w0, mk_mid, mk_fix, local_pos. rewrite E1, E2, L1, L2, G1, G2.
    change (0 <? 1) with true. change (1 <? 1) with false. change (2 <? 1) with false.
    change (0 =? 0) with true. change (1 =? 0) with false. change (2 =? 0) with false. cbv iota.
    cbn [unit_range r_gstart r_gwidth].
    replace (b q + (e q - b q) - (b q + (b (q+1) - b q))) with (e q - b (q+1)) by lia.
    rewrite Z.quot_div_nonneg by lia. pose proof (Z.div_mod (e q - b (q+1)) 2 ltac:(lia)) as D.
    pose proof (Z.mod_pos_bound (e q - b (q+1)) 2 ltac:(lia)) as M.
    set (k := (e q - b (q+1)) / 2) in *. clearbody k.
    change (0 <? 0) with false. cbn [andb]. rewrite !orb_false_r.
    destruct ((b q + (b (q+1) - b q) =? b q + (e q - b q) - 1) || (b q + (b (q+1) - b q) =? b q + (e q - b q))) eqn:F; lia.
  Qed.

  (** A node is in the mask exactly if it is the middle of a shared layer, or is not shared and is not the last node of a
      process that shares nothing with a next one. *)
Theorem C129_line : forall x, b 0 <= x < b P ->
    in_mask 1 P N (fun d => if d =? 0 then x else 0) = true <->
    middle P b e x \/ (~ shared P b e x /\ ~ unshared_end P b e x).
  Proof using HN Hok.
    intros x Hx. destruct (owner x Hx) as (r & Hr & Hxr). pose proof Hok as (HP & Hb & He & HeP).
    assert (Hle : forall q, 0 <= q < P -> b (q+1) <= e q).
    { intros q Hq. destruct (Z.eq_dec q (P-1)) as [->|]; [replace (P-1+1) with P by lia; lia|]. apply He. lia. }
    assert (Hfar : forall q, 0 <= q < P -> q <> r -> q <> r - 1 -> ~ (b q <= x < e q)).
    { intros q Hq N1 N2 [A B]. destruct (Z_lt_le_dec q r).
      - pose proof (He q ltac:(lia)). pose proof (b_mono (q+2) r ltac:(lia) ltac:(lia) ltac:(lia)). lia.
      - pose proof (b_mono (r+1) q ltac:(lia) ltac:(lia) ltac:(lia)). lia. }
    assert (Hg : forall q, 0 <= q < P -> q <> r -> q <> r - 1 -> in_ghost (N q) (fun d => if d =? 0 then x else 0) = false).
    { intros q Hq N1 N2. rewrite ghost_1d by auto. specialize (Hfar q Hq N1 N2). lia. }
    unfold in_mask, marks, fat. rewrite (count_two _ P r Hr) by (intros q Hq N1 N2; rewrite Hg by auto; reflexivity).
    rewrite (count_two _ P r Hr) by (intros q Hq N1 N2; rewrite Hg by auto; reflexivity).
    rewrite (ghost_1d r) by auto. rewrite (marked_1d r) by auto.
    pose proof (Hle r Hr) as Her. pose proof (Hb r Hr) as Hbr.
    replace ((b r <=? x) && (x <? e r)) with true by lia. cbn [andb].
    (* the mark of the owner itself *)
    pose proof (Z.div_mod (e r - b (r+1)) 2 ltac:(lia)) as D. pose proof (Z.mod_pos_bound (e r - b (r+1)) 2 ltac:(lia)) as M.
    assert (Hown : (1 <? e r - b r) && (x =? e r - 1 - (e r - b (r+1)) / 2) = true <-> unshared_end P b e x).
    { rewrite andb_true_iff, Z.ltb_lt, Z.eqb_eq. split.
      - intros [A B]. exists r. lia.
      - intros (q & Hq & Q1 & Q2 & Q3). pose proof (Hb q Hq).
        destruct (Z.eq_dec q r) as [->|]; [rewrite Q1 in *; rewrite Z.sub_diag; change (0/2) with 0; lia|].
        destruct (Z.eq_dec q (r-1)) as [->|]; [replace (r-1+1) with r in * by lia; lia|].
        exfalso. apply (Hfar q Hq); auto. lia. }
    destruct (Z.leb_spec 1 r) as [H1|H1]; cbn [andb].
    - pose proof (He (r-1) ltac:(lia)) as He1. pose proof (Hb (r-1) ltac:(lia)) as Hb1.
      replace (r-1+1) with r in * by lia. replace (r-1+2) with (r+1) in * by lia.
      rewrite (ghost_1d (r-1)) by lia. rewrite (marked_1d (r-1)) by (replace (r-1+1) with r by lia; lia).
      replace (r-1+1) with r by lia. replace (b (r-1) <=? x) with true by lia. cbn [andb].
      assert (Hsh : shared P b e x <-> x < e (r-1)).
      { split.
        - intros (q & Hq & Q). destruct (Z.eq_dec q (r-1)) as [->|]; [lia|]. destruct (Z.eq_dec q r) as [->|]; [lia|].
          exfalso. apply (Hfar q ltac:(lia)); auto. pose proof (Hb q ltac:(lia)). lia.
        - intros. exists (r-1). replace (r-1+1) with r by lia. lia. }
      pose proof (Z.div_mod (e (r-1) - b r) 2 ltac:(lia)) as D1. pose proof (Z.mod_pos_bound (e (r-1) - b r) 2 ltac:(lia)) as M1.
      assert (Hmid : middle P b e x <-> b r < e (r-1) /\ x = e (r-1) - 1 - (e (r-1) - b r) / 2).
      { split.
        - intros (q & Hq & Q1 & Q2). pose proof (Z.div_mod (e q - b (q+1)) 2 ltac:(lia)).
          pose proof (Z.mod_pos_bound (e q - b (q+1)) 2 ltac:(lia)).
          destruct (Z.eq_dec q (r-1)) as [->|]; [replace (r-1+1) with r in * by lia; lia|]. exfalso.
          destruct (Z.eq_dec q r) as [->|]; [lia|]. pose proof (Hb q ltac:(lia)). apply (Hfar q ltac:(lia)); auto. lia.
        - intros [A B]. exists (r-1). replace (r-1+1) with r by lia. lia. }
      rewrite Hmid, Hsh, <- Hown. set (k1 := (e (r-1) - b r) / 2) in *. set (k := (e r - b (r+1)) / 2) in *. clearbody k k1.
      clear - Hxr He1 Hb1 Hbr Her D M D1 M1 H1.
      destruct (Z.ltb_spec x (e (r-1))), (Z.ltb_spec 1 (e r - b r)), (Z.eqb_spec x (e r - 1 - k)),
        (Z.ltb_spec 1 (e (r-1) - b (r-1))), (Z.eqb_spec x (e (r-1) - 1 - k1)); cbn [andb];
        try (exfalso; lia); cbn; split; intros HH; try discriminate; try reflexivity; try lia;
        try (right; split; [lia|discriminate]).
    - assert (r = 0) by lia. subst r. change (0 + 1) with 1 in *.
      assert (Hsh : ~ shared P b e x).
      { intros (q & Hq & Q). pose proof (b_mono 1 (q+1) ltac:(lia) ltac:(lia) ltac:(lia)).  lia. }
      assert (Hmid : ~ middle P b e x).
      { intros (q & Hq & Q1 & Q2). pose proof (b_mono 1 (q+1) ltac:(lia) ltac:(lia) ltac:(lia)). 
        pose proof (Z.div_mod (e q - b (q+1)) 2 ltac:(lia)). pose proof (Z.mod_pos_bound (e q - b (q+1)) 2 ltac:(lia)). lia. }
      rewrite <- Hown. destruct ((1 <? e 0 - b 0) && (x =? e 0 - 1 - (e 0 - b 1) / 2)); cbn; split; intros HH; try discriminate; try reflexivity; try tauto.
      right. split; [auto|discriminate].
  Qed.
End Line.
Print Assumptions C129_line.

(** ** Layouts of IGASetUp *)
Definition node_ranges {O : KnotOrd} g2 g3 maxint size dim (axes : Z -> axis O) user (r d : Z) : range :=
  match stage1 g2 g3 maxint size r dim axes user with (Ok, Some ly) => ly_node ly d | _ => unit_range end.

(** One direction that is not periodic: the same for every set-up IGA in which no process uses all nodes of the next. *)
Theorem C129_setup : forall (O : KnotOrd) (g2 : Z -> Z -> Z -> Z) (g3 : Z -> Z -> Z -> Z -> Z)
    (maxint size r0 : Z) (axes : Z -> axis O) (user : list Z) (ly0 : layout),
  (forall a b c, 0 <= g2 a b c) -> (forall a b c d, 0 <= g3 a b c d) ->
  axis_ready (axes 0) -> ends_nonempty (ax_p (axes 0)) (ax_m (axes 0)) (ax_U (axes 0)) -> ax_periodic (axes 0) = false ->
  stage1 g2 g3 maxint size r0 1 axes user = (Ok, Some ly0) ->
  let N := node_ranges g2 g3 maxint size 1 axes user in
  let first q := if q =? size then ax_nnp (axes 0) else r_lstart (N q 0) in
  let last1 q := r_gstart (N q 0) + r_gwidth (N q 0) in
  (forall q, 0 <= q < size - 1 -> last1 q < first (q + 2)) ->
  forall x, 0 <= x < ax_nnp (axes 0) ->
    in_mask 1 size N (fun d => if d =? 0 then x else 0) = true <->
    middle size first last1 x \/ (~ shared size first last1 x /\ ~ unshared_end size first last1 x).
Proof.
  intros O g2 g3 maxint size r0 axes user ly0 H2 H3 [l L] He Hper H N first last1 Hover x Hx.
  destruct (stage1_spec g2 g3 H2 H3 _ _ _ _ _ _ _ H) as (n & Hn & HL & _ & Hz & Hr & HP & Hall).
  destruct n as [|n0 [|n1 n]]; cbn [length] in HL; try lia. clear HL.
  assert (n0 = size) by (cbn in Hz; lia). subst n0. specialize (HP 0 ltac:(lia)). change (pad 1 [size] 0) with size in HP.
  assert (HN0 : forall q, 0 <= q < size -> N q 0 = nrange size (axes 0) q).
  { intros q Hq. unfold N, node_ranges. rewrite Hall by auto. unfold layout_of. cbn [ly_node]. change (0 <? 1) with true. cbv iota.
    change (pad 1 [size] 0) with size. replace (pad 0 (rank_coords [size] q) 0) with q; [reflexivity|].
    unfold pad. cbn. rewrite Z.mod_small by lia. reflexivity. }
  assert (HN1 : forall q d, 0 <= q < size -> 1 <= d -> N q d = unit_range).
  { intros q d Hq Hd. unfold N, node_ranges. rewrite Hall by auto. unfold layout_of. cbn [ly_node].
    replace (d <? 1) with false by lia. reflexivity. }
  destruct (node_tiles (axes 0) l size L He HP) as ((_ & T0 & _ & T1 & T2) & W & G).
  destruct (wf_ends (axes 0) l L He) as (_ & _ & Hlast).
  pose proof L as (_ & _ & _ & Hnnp). rewrite Hper in Hnnp.
  assert (F : forall q, 0 <= q < size -> first q = r_lstart (nrange size (axes 0) q)).
  { intros q Hq. unfold first. replace (q =? size) with false by lia. rewrite HN0 by auto. reflexivity. }
  assert (FP : first size = ax_nnp (axes 0)) by (unfold first; rewrite Z.eqb_refl; reflexivity).
  assert (Fn : forall q, 0 <= q < size -> first (q+1) = first q + r_lwidth (nrange size (axes 0) q)).
  { intros q Hq. rewrite (F q) by auto. destruct (Z.eq_dec q (size-1)) as [->|].
    - replace (size - 1 + 1) with size by lia. rewrite FP, T2. reflexivity.
    - rewrite F by lia. apply T1. lia. }
  assert (Gs : forall q, r_gstart (nrange size (axes 0) q) = r_lstart (nrange size (axes 0) q)) by reflexivity.
  assert (E : forall q, 0 <= q < size -> last1 q = first q + r_gwidth (nrange size (axes 0) q)).
  { intros q Hq. unfold last1. rewrite HN0, Gs, F by auto. reflexivity. }
  apply C129_line.
  - intros q Hq. rewrite (HN1 q 1), (HN1 q 2), HN0, Gs, Fn, E, <- F by lia. repeat split; lia.
  - split; [lia|]. split; [|split].
    + intros q Hq. rewrite Fn by auto. specialize (W q Hq). lia.
    + intros q Hq. split; [|apply Hover; auto]. rewrite Fn, E by lia. specialize (G q ltac:(lia)). rewrite Gs in G. lia.
    + rewrite FP. unfold last1. rewrite HN0 by lia.
      destruct (elem_block size (axes 0) (size-1) HP ltac:(lia)) as (_ & _ & _ & _ & B5 & _ & _).
      unfold nrange, node_range, geom_range. cbn [r_gstart r_gwidth].
      rewrite B5 by lia. rewrite Hlast. lia.
  - rewrite F, T0, FP by lia. lia.
Qed.
Print Assumptions C129_setup.

(** Six quadratic elements on two processes: 8 nodes, of which the processes share the nodes 3 and 4. *)
Definition mk_axis6 : axis Zord := ex_axis false 10 [0;0;0;1;2;3;4;5;6;6;6].
Lemma mk_axis6_ready : axis_ready mk_axis6 /\ ends_nonempty (ax_p mk_axis6) (ax_m mk_axis6) (ax_U mk_axis6).
Proof.
  split; [|split; reflexivity].
  apply (set_knots_wf (@mk_axis Zord false 2 1 (fun _ => 0) 1 1 (Some [0])) _ 10 (arr 0 [0;0;0;1;2;3;4;5;6;6;6])). reflexivity.
Qed.
Definition line2 : Z -> Z -> range := node_ranges exact_g2 exact_g3 (2^31-1) 2 1 (fun _ => mk_axis6) [-1].
Example C129_case :
  line2 0 0 = mk_range 8 0 3 0 5 /\ line2 1 0 = mk_range 8 3 5 3 5 /\ ax_nnp mk_axis6 = 8 /\ ax_periodic mk_axis6 = false /\
  map (fun x => in_mask 1 2 line2 (fun d => if d =? 0 then x else 0)) (zseq 0 8) = [true; true; true; true; false; true; true; false].
Proof. vm_compute. repeat split. Qed.

(** So the two ends of the domain, used by one process each, are treated differently. *)
Theorem C129_ends_refuted : exists (axes : Z -> axis Zord) (user : list Z),
  let N := node_ranges exact_g2 exact_g3 (2^31-1) 2 1 axes user in
  let node x := fun d : Z => if d =? 0 then x else 0 in
  fat 2 N (node 0) = 1 /\ fat 2 N (node (ax_nnp (axes 0) - 1)) = 1 /\
  in_mask 1 2 N (node 0) = true /\ in_mask 1 2 N (node (ax_nnp (axes 0) - 1)) = false.
Proof. exists (fun _ => mk_axis6), [-1]. vm_compute. repeat split. Qed.
Print Assumptions C129_ends_refuted.

(** Two directions with the same axis on 2 x 2 processes: the mask is not the same with the directions exchanged, since
    the bounds of the second direction look at fix[0]. *)
Theorem C129_directions_refuted : exists (axes : Z -> axis Zord) (user : list Z) (x y : Z),
  axes 0 = axes 1 /\
  let N := node_ranges exact_g2 exact_g3 (2^31-1) 4 2 axes user in
  let node x y := fun d : Z => if d =? 0 then x else if d =? 1 then y else 0 in
  fat 4 N (node x y) = 1 /\ fat 4 N (node y x) = 1 /\
  in_mask 2 4 N (node x y) = true /\ in_mask 2 4 N (node y x) = false.
Proof. exists (fun _ => mk_axis6), [2;2], 1, 7. split; [reflexivity|]. vm_compute. repeat split. Qed.
Print Assumptions C129_directions_refuted.
