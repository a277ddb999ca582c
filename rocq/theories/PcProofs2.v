(** The blocks of the two preconditioners. *)
From Coq Require Import ZArith List Bool Lia Reals Lra Permutation.
From Coq Require Import ZifyBool ZifyNat.
From Verif Require Import Prelude AxisModel AxisSpec AxisProofs PartModel PartSpec PartProofs SetupModel SetupProofs SetupProps
  Box GridModel GridSpec GridProofs GridSetup GridProps ElemModel ElemSpec ElemProofs AsmProofs ElemProps SolvModel SolvProofs SolvProps PcModel PcSpec PcProofs.
Import ListNotations.
Open Scope Z_scope.

Section OneD.
  Context {O : KnotOrd}.
  Variables (a : axis O) (l : list Z) (P c : Z).
  Hypothesis Hwf : wf a l.
  Hypothesis He : ends_nonempty (ax_p a) (ax_m a) (ax_U a).
  Hypothesis HP : 1 <= P <= ax_nel a.
  Hypothesis Hc : 0 <= c < P.

  Lemma one_range : r_lstart (nrange P a c) = span_at a (es P a c) - ax_p a /\
    (c < P-1 -> r_lwidth (nrange P a c) = span_at a (es P a c + ew P a c) - span_at a (es P a c)) /\
    (c = P-1 -> r_lwidth (nrange P a c) = ax_nnp a - (span_at a (es P a c) - ax_p a)).
  Proof.
    destruct (elem_block P a c HP Hc) as (B1 & B2 & B3 & B4 & B5 & B6 & B7).
    unfold nrange, node_range, geom_range; cbn [r_lstart r_lwidth].
    split; [reflexivity|]. split.
    - intros Hlt. specialize (B7 Hlt). replace (c =? P-1) with false by lia.
      replace (es P a c + ew P a c - 1 <? ax_nel a - 1) with true by lia.
      replace (es P a c + ew P a c - 1 + 1) with (es P a c + ew P a c) by lia. lia.
    - intros ->. rewrite Z.eqb_refl. reflexivity.
  Qed.

  (** the first function of a local element is owned *)
  Lemma first_owned e : es P a c <= e < es P a c + ew P a c ->
    r_lstart (nrange P a c) <= span_at a e - ax_p a < r_lstart (nrange P a c) + r_lwidth (nrange P a c).
  Proof.
    intros H. destruct (elem_block P a c HP Hc) as (B1 & B2 & B3 & B4 & B5 & B6 & B7). destruct one_range as (D1 & D2 & D3).
    destruct (wf_ends a l Hwf He) as (Hnel & _ & Hlast). destruct (wf_nnp a l Hwf) as (s & Hs & Hnnp).
    pose proof Hwf as (_ & (Hp & Hm & _) & _).
    pose proof (span_at_gap a l Hwf (es P a c) e ltac:(lia) ltac:(lia) ltac:(lia)). rewrite D1. split; [lia|].
    destruct (Z.eq_dec c (P-1)) as [E|E].
    - rewrite (D3 E). pose proof (span_at_gap a l Hwf e (ax_nel a - 1) ltac:(lia) ltac:(lia) ltac:(lia)). destruct (ax_periodic a); lia.
    - rewrite (D2 ltac:(lia)). specialize (B7 ltac:(lia)). pose proof (span_at_gap a l Hwf e (es P a c + ew P a c) ltac:(lia) ltac:(lia) ltac:(lia)). lia.
  Qed.

  (** every owned function is active on a local element *)
  Lemma owned_active t : r_lstart (nrange P a c) <= t < r_lstart (nrange P a c) + r_lwidth (nrange P a c) ->
    exists e, es P a c <= e < es P a c + ew P a c /\ span_at a e - ax_p a <= t <= span_at a e.
  Proof.
    intros Ht. destruct (elem_block P a c HP Hc) as (B1 & B2 & B3 & B4 & B5 & B6 & B7). destruct one_range as (D1 & D2 & D3).
    destruct (wf_ends a l Hwf He) as (Hnel & _ & Hlast). destruct (wf_nnp a l Hwf) as (s & Hs & Hnnp).
    pose proof Hwf as (_ & (Hp & Hm & _) & _).
    assert (K : forall k, 0 <= k -> k < ew P a c -> span_at a (es P a c + k) - ax_p a <= t ->
       exists e, es P a c <= e <= es P a c + k /\ span_at a e - ax_p a <= t /\ True) by (intros k K0 K1 K2; exists (es P a c + k); lia).
    clear K.
    assert (K : forall k, 0 <= k -> k < ew P a c ->
      (exists e, es P a c <= e < es P a c + ew P a c /\ span_at a e - ax_p a <= t <= span_at a e) \/ span_at a (es P a c + k) - ax_p a <= t).
    { apply (natlike_ind (fun k => k < ew P a c -> (exists e, es P a c <= e < es P a c + ew P a c /\ span_at a e - ax_p a <= t <= span_at a e) \/ span_at a (es P a c + k) - ax_p a <= t)).
      - intros _. right. rewrite Z.add_0_r. lia.
      - intros k Hk IH Hk1. destruct (IH ltac:(lia)) as [Q|Q]; [left; exact Q|].
        destruct (Z.leb_spec (span_at a (es P a c + Z.succ k) - ax_p a) t) as [L|L]; [right; exact L|]. left. exists (es P a c + k).
        pose proof (span_at_step a l Hwf (es P a c + k) ltac:(lia) ltac:(lia)) as ST. replace (es P a c + k + 1) with (es P a c + Z.succ k) in ST by lia. lia. }
    destruct (K (ew P a c - 1) ltac:(lia) ltac:(lia)) as [Q|Q]; [exact Q|]. exists (es P a c + (ew P a c - 1)). split; [lia|]. split; [exact Q|].
    rewrite D1 in Ht. destruct (Z.eq_dec c (P-1)) as [E|E].
    - rewrite (D3 E) in Ht. replace (es P a c + (ew P a c - 1)) with (ax_nel a - 1) by (specialize (B5 E); lia). rewrite Hlast. destruct (ax_periodic a); lia.
    - rewrite (D2 ltac:(lia)) in Ht. specialize (B7 ltac:(lia)). pose proof (span_at_step a l Hwf (es P a c + (ew P a c - 1)) ltac:(lia) ltac:(lia)) as ST.
      replace (es P a c + (ew P a c - 1) + 1) with (es P a c + ew P a c) in ST by lia. lia.
  Qed.
End OneD.

Definition tri (f : Z -> Z) : triple := (f 0, f 1, f 2).
Lemma coord_tri f d : 0 <= d < 3 -> coord (tri f) d = f d.
Proof.
  intros H. assert (E : d = 0 \/ d = 1 \/ d = 2) by lia.
  destruct E as [-> | [-> | ->]]; reflexivity.
Qed.
Lemma in_box_coord s w t : in_box s w t <-> forall d, 0 <= d < 3 -> s d <= coord t d < s d + w d.
Proof.
  destruct t as [[i j] k]. unfold in_box. split.
  - intros H d Hd. assert (E : d = 0 \/ d = 1 \/ d = 2) by lia.
    destruct E as [-> | [-> | ->]]; [change (coord (i,j,k) 0) with i|change (coord (i,j,k) 1) with j|change (coord (i,j,k) 2) with k]; lia.
  - intros H. pose proof (H 0 ltac:(lia)) as H0. pose proof (H 1 ltac:(lia)) as H1. pose proof (H 2 ltac:(lia)) as H2.
    change (coord (i,j,k) 0) with i in H0. change (coord (i,j,k) 1) with j in H1. change (coord (i,j,k) 2) with k in H2. lia.
Qed.
Lemma tri_ext t u : (forall d, 0 <= d < 3 -> coord t d = coord u d) -> t = u.
Proof.
  destruct t as [[i j] k], u as [[i' j'] k']. intros H. pose proof (H 0 ltac:(lia)) as H0. pose proof (H 1 ltac:(lia)) as H1. pose proof (H 2 ltac:(lia)) as H2.
  change (i = i') in H0. change (j = j') in H1. change (k = k') in H2. congruence.
Qed.
Lemma coord_tadd f t d : 0 <= d < 3 -> coord (tadd f t) d = f d + coord t d.
Proof. intros H. destruct t as [[i j] k]. assert (E : d = 0 \/ d = 1 \/ d = 2) by lia. destruct E as [-> | [-> | ->]]; reflexivity. Qed.
Lemma coord_modbox N t d : 0 <= d < 3 -> coord (modbox N t) d = coord t d mod N d.
Proof. intros H. destruct t as [[i j] k]. assert (E : d = 0 \/ d = 1 \/ d = 2) by lia. destruct E as [-> | [-> | ->]]; reflexivity. Qed.

Lemma NoDup_flat_map' {A B} (f : A -> list B) l : NoDup l -> (forall x, In x l -> NoDup (f x)) ->
  (forall x y z, In x l -> In y l -> In z (f x) -> In z (f y) -> x = y) -> NoDup (flat_map f l).
Proof.
  induction l as [|a l IH]; intros HN Hf Hd; cbn [flat_map]; [constructor|]. inversion HN; subst.
  assert (NA : forall l1 l2 : list B, NoDup l1 -> NoDup l2 -> (forall x, In x l1 -> ~ In x l2) -> NoDup (l1 ++ l2)).
  { induction l1 as [|b l1 IH1]; intros l2 N1 N2 D; cbn [app]; auto. inversion N1; subst. constructor.
    - rewrite in_app_iff. intros [K|K]; [auto|]. apply (D b); [left; auto|auto].
    - apply IH1; auto. intros x Hx. apply D. right; auto. }
  apply NA.
  - apply Hf. left; auto.
  - apply IH; auto; [intros; apply Hf; right; auto|]. intros x y z Hx Hy. apply Hd; right; auto.
  - intros z Hz Hz'. apply in_flat_map in Hz'. destruct Hz' as (y & Hy & Hzy). assert (a = y) by (apply (Hd a y z); [left; auto|right; auto|auto|auto]). subst y. auto.
Qed.

Section Blocks.
  Context {O : KnotOrd}.
  Variables (g2 : Z -> Z -> Z -> Z) (g3 : Z -> Z -> Z -> Z -> Z) (maxint size dim : Z) (axes : Z -> axis O) (user : list Z) (LY : Z -> layout) (dof : Z).
  Hypothesis S : setup_ok g2 g3 maxint size dim axes user LY.
  Hypothesis Hdof : 1 <= dof.
  Let G := fun r => grid_of dof (ly_node (LY r)).
  Let N := node_size dim axes.
  Let nen := basis_nen dim axes.
  Let mapping := fun r e => closure (elem_off dim axes e) (basis_nen dim axes) (gr_gstart (G r)) (gr_gwidth (G r)).

  Lemma pc_world : grid_world size dof N G.
  Proof. exact (setup_world _ _ _ _ _ _ _ _ S dof Hdof). Qed.
  Lemma pc_Npos d : 0 <= d < 3 -> 1 <= N d.
  Proof.
    intros Hd. pose proof S as (_ & _ & Hsz & _). pose proof (setup_node_facts _ _ _ _ _ _ _ _ S 0 d ltac:(lia) Hd) as (_ & B & _). unfold N. lia.
  Qed.

  (** The list computed by the code is the list of owned unknowns. *)
  Lemma ebe_block_form r e : 0 <= r < size -> In e (box (ly_elem_start (LY r)) (ly_elem_width (LY r))) ->
    owned_indices (lgmap size G r) dof ((dof * off G r) / dof) ((dof * off G (r+1)) / dof) (mapping r e) =
    element_unknowns (in_boxb (gr_lstart (G r)) (gr_lwidth (G r))) (fun t => ao size G (lin N t)) dof
      (map (elem_node N (elem_off dim axes) e) (box zero3 nen)).
  Proof.
    intros Hr He. pose proof pc_world as W.
    assert (Hdz : forall x, dof * x / dof = x) by (intros x; rewrite Z.mul_comm; apply Z.div_mul; lia). rewrite !Hdz.
    unfold owned_indices, element_unknowns, mapping.
    assert (MF : closure (elem_off dim axes e) (basis_nen dim axes) (gr_gstart (G r)) (gr_gwidth (G r)) =
      map (fun a => lin (gr_gwidth (G r)) (tsub (gr_gstart (G r)) (tadd (elem_off dim axes e) a))) (box zero3 nen)).
    { unfold closure. apply map_ext. intros [[i j] k]. unfold lin, tsub, tadd. lia. }
    rewrite MF. rewrite !flat_map_concat_map, !map_map. f_equal. apply map_ext_in. intros a Ha.
    assert (Hcov : in_box (gr_gstart (G r)) (gr_gwidth (G r)) (tadd (elem_off dim axes e) a))
      by exact (setup_cover O g2 g3 maxint size dim axes user LY dof S r e a Hr He Ha).
    assert (ME : lgmap size G r (lin (gr_gwidth (G r)) (tsub (gr_gstart (G r)) (tadd (elem_off dim axes e) a))) = ao size G (lin N (elem_node N (elem_off dim axes) e a))).
    { assert (Hg : forall d, 0 <= d < 3 -> - N d <= gr_gstart (G r) d).
      { intros d Hd. pose proof (setup_node_facts _ _ _ _ _ _ _ _ S r d Hr Hd) as (_ & B & C & _). unfold G; cbn [grid_of gr_gstart]. fold N in B. lia. }
      unfold elem_node. destruct (tadd (elem_off dim axes e) a) as [[i j] k]. unfold in_box in Hcov. unfold tsub.
      rewrite (lgmap_coords _ _ _ _ W) by (auto; lia). do 4 f_equal; [f_equal|]; lia. }
    cbv zeta. rewrite ME. pose proof (modbox_in _ _ _ _ W (tadd (elem_off dim axes e) a)) as Hm. fold (elem_node N (elem_off dim axes) e a) in Hm.
    set (t := elem_node N (elem_off dim axes) e a) in *.
    pose proof (C15_numbering_is_permutation size dof N G W) as (_ & _ & _ & _ & _ & _ & HO & _). specialize (HO r t Hr Hm).
    destruct (in_boxb (gr_lstart (G r)) (gr_lwidth (G r)) t) eqn:E.
    - apply in_boxb_spec in E. apply HO in E. replace ((off G r <=? ao size G (lin N t)) && (ao size G (lin N t) <? off G (r+1))) with true by lia.
      apply map_ext. intros; lia.
    - replace ((off G r <=? ao size G (lin N t)) && (ao size G (lin N t) <? off G (r+1))) with false; [reflexivity|].
      symmetry. apply not_true_is_false. intros K. assert (in_boxb (gr_lstart (G r)) (gr_lwidth (G r)) t = true) by (apply in_boxb_spec, HO; lia). congruence.
  Qed.

  Definition spec_blocks (order : list Z) : list (list Z) :=
    flat_map (fun r => map (fun e => element_unknowns (in_boxb (gr_lstart (G r)) (gr_lwidth (G r))) (fun t => ao size G (lin N t)) dof
      (map (elem_node N (elem_off dim axes) e) (box zero3 nen))) (box (ly_elem_start (LY r)) (ly_elem_width (LY r)))) order.

  Let blk r e := element_unknowns (in_boxb (gr_lstart (G r)) (gr_lwidth (G r))) (fun t => ao size G (lin N t)) dof
      (map (elem_node N (elem_off dim axes) e) (box zero3 nen)).

  Lemma in_blk r e x : In x (blk r e) <-> exists a c, In a (box zero3 nen) /\ 0 <= c < dof /\
    in_box (gr_lstart (G r)) (gr_lwidth (G r)) (elem_node N (elem_off dim axes) e a) /\ x = dof * ao size G (lin N (elem_node N (elem_off dim axes) e a)) + c.
  Proof.
    unfold blk, element_unknowns. rewrite in_flat_map. split.
    - intros (t & Ht & Hx). apply in_map_iff in Ht. destruct Ht as (a & <- & Ha). destruct (in_boxb _ _ _) eqn:E; [|destruct Hx].
      apply in_map_iff in Hx. destruct Hx as (c & <- & Hc). apply in_zseq in Hc. exists a, c. apply in_boxb_spec in E. repeat split; auto; lia.
    - intros (a & c & Ha & Hc & HB & ->). exists (elem_node N (elem_off dim axes) e a). split; [apply in_map; auto|].
      apply in_boxb_spec in HB. rewrite HB. apply in_map_iff. exists c. split; auto. apply in_zseq. lia.
  Qed.

  Lemma blk_range r e x : In x (blk r e) -> 0 <= x < dof * (N 0 * (N 1 * N 2)).
  Proof.
    intros H. apply in_blk in H. destruct H as (a & c & _ & Hc & _ & ->). pose proof pc_world as W.
    pose proof (modbox_in _ _ _ _ W (tadd (elem_off dim axes e) a)) as Hm. fold (elem_node N (elem_off dim axes) e a) in Hm.
    pose proof (C15_numbering_is_permutation size dof N G W) as (H1 & _). destruct (H1 _ Hm) as [_ H2]. nia.
  Qed.

  (** elements of the layout *)
  Lemma elem_owned_first r e : 0 <= r < size -> In e (box (ly_elem_start (LY r)) (ly_elem_width (LY r))) ->
    in_box (gr_lstart (G r)) (gr_lwidth (G r)) (elem_node N (elem_off dim axes) e (0,0,0)).
  Proof.
    intros Hr He. destruct (setup_form _ _ _ _ _ _ _ _ S) as (n & Hn & HL & Hdim & Hz & HP & HLY).
    apply In_box in He. rewrite in_box_coord in He.
    assert (K : in_box (gr_lstart (G r)) (gr_lwidth (G r)) (tri (elem_off dim axes e))).
    { apply in_box_coord. intros d Hd. rewrite coord_tri by auto. rewrite elem_off_coord by auto. specialize (He d Hd).
      unfold G. cbn [grid_of gr_lstart gr_lwidth]. rewrite (HLY r Hr) in *. unfold layout_of in *. cbn [ly_node ly_elem_start ly_elem_width] in *.
      unfold basis_offset. destruct (d <? dim) eqn:E; [|cbn; lia].
      destruct (setup_wf _ _ _ _ _ _ _ _ S d ltac:(lia)) as (l & L & Le).
      pose proof (pad_coords n r d Hn ltac:(lia) ltac:(lia)) as Hc. specialize (HP d ltac:(lia)).
      exact (first_owned (axes d) l (pad 1 n d) (pad 0 (rank_coords n r) d) L Le HP Hc (coord e d) He). }
    replace (elem_node N (elem_off dim axes) e (0,0,0)) with (tri (elem_off dim axes e)); auto.
    unfold elem_node. rewrite (modbox_id N). { unfold tadd, tri. rewrite !Z.add_0_r. reflexivity. }
    replace (tadd (elem_off dim axes e) (0,0,0)) with (tri (elem_off dim axes e)) by (unfold tadd, tri; rewrite !Z.add_0_r; reflexivity).
    exact (own_in_grid size dof N G pc_world r _ Hr K).
  Qed.

  Lemma zero_in_nen : In (0,0,0) (box zero3 nen).
  Proof.
    apply In_box, in_box_coord. intros d Hd. replace (coord (0,0,0) d) with 0.
    2:{ assert (E : d = 0 \/ d = 1 \/ d = 2) by lia. destruct E as [-> | [-> | ->]]; reflexivity. }
    unfold zero3, nen, basis_nen. destruct (d <? dim) eqn:E; [|lia]. destruct (setup_wf _ _ _ _ _ _ _ _ S d ltac:(lia)) as (l & (_ & (Hp & _) & _) & _). lia.
  Qed.

  Lemma blk_nonempty r e : 0 <= r < size -> In e (box (ly_elem_start (LY r)) (ly_elem_width (LY r))) -> 1 <= len (blk r e).
  Proof.
    intros Hr He. assert (K : In (dof * ao size G (lin N (elem_node N (elem_off dim axes) e (0,0,0))) + 0) (blk r e)).
    { apply in_blk. exists (0,0,0), 0. split; [exact zero_in_nen|]. split; [lia|]. split; [apply elem_owned_first; auto|auto]. }
    unfold len. destruct (blk r e); [destruct K|cbn [length]; lia].
  Qed.

  Lemma blk_nodup r e : (forall d, 0 <= d < dim -> ax_p (axes d) + 1 <= ax_nnp (axes d)) -> NoDup (blk r e).
  Proof.
    intros HS. pose proof pc_world as W. unfold blk, element_unknowns.
    assert (MN : forall a b, In a (box zero3 nen) -> In b (box zero3 nen) -> elem_node N (elem_off dim axes) e a = elem_node N (elem_off dim axes) e b -> a = b).
    { intros a b Ha Hb E. apply In_box in Ha. apply In_box in Hb. rewrite in_box_coord in Ha, Hb. apply tri_ext. intros d Hd.
      specialize (Ha d Hd). specialize (Hb d Hd). assert (Ed : coord (elem_node N (elem_off dim axes) e a) d = coord (elem_node N (elem_off dim axes) e b) d) by (rewrite E; auto).
      unfold elem_node in Ed. rewrite !coord_modbox, !coord_tadd in Ed by auto. pose proof (pc_Npos d Hd) as NP.
      assert (nen d <= N d). { unfold nen, N, basis_nen, node_size. destruct (d <? dim) eqn:Q; [apply HS; lia|lia]. }
      unfold zero3 in *. revert Ed. generalize (elem_off dim axes e d). intros o Ed.
      assert (Dv : ((o + coord a d) - (o + coord b d)) mod N d = 0) by (rewrite Zminus_mod, Ed, Z.sub_diag; apply Z.mod_0_l; lia).
      replace (o + coord a d - (o + coord b d)) with (coord a d - coord b d) in Dv by lia.
      destruct (Z.leb_spec (coord b d) (coord a d)).
      - rewrite Z.mod_small in Dv by lia. lia.
      - rewrite <- (Z.mod_add _ 1) in Dv by lia. rewrite Z.mod_small in Dv by lia. lia. }
    apply NoDup_flat_map'.
    - assert (NM : forall l, NoDup l -> (forall x, In x l -> In x (box zero3 nen)) -> NoDup (map (elem_node N (elem_off dim axes) e) l)).
      { induction l as [|x l IH]; intros N0 I0; cbn [map]; constructor; inversion N0; subst.
        - intros K. apply in_map_iff in K. destruct K as (y & Ey & Hy). apply MN in Ey; [subst; auto| |]; apply I0; [right|left]; auto.
        - apply IH; auto. intros y Hy. apply I0. right; auto. }
      apply NM; auto. apply NoDup_box.
    - intros t _. destruct (in_boxb _ _ _); [|constructor]. apply FinFun.Injective_map_NoDup; [intros x y; lia|apply NoDup_zseq].
    - intros t u z Ht Hu Hz Hz'. apply in_map_iff in Ht. destruct Ht as (a & <- & Ha). apply in_map_iff in Hu. destruct Hu as (b & <- & Hb).
      pose proof (modbox_in _ _ _ _ W (tadd (elem_off dim axes e) a)) as Ma. fold (elem_node N (elem_off dim axes) e a) in Ma.
      pose proof (modbox_in _ _ _ _ W (tadd (elem_off dim axes e) b)) as Mb. fold (elem_node N (elem_off dim axes) e b) in Mb.
      destruct (in_boxb _ _ (elem_node N (elem_off dim axes) e a)); [|destruct Hz]. destruct (in_boxb _ _ (elem_node N (elem_off dim axes) e b)); [|destruct Hz'].
      apply in_map_iff in Hz. destruct Hz as (c & <- & Hc). apply in_map_iff in Hz'. destruct Hz' as (c' & E & Hc'). apply in_zseq in Hc. apply in_zseq in Hc'.
      apply block_inj in E; [|lia|lia|lia]. destruct E as [E _]. apply (ao_inj _ _ _ _ W) in E; [|apply lin_in_range; auto|apply lin_in_range; auto].
      apply lin_inj in E; auto.
  Qed.

  Lemma blk_cover x : 0 <= x < dof * (N 0 * (N 1 * N 2)) ->
    exists r e, 0 <= r < size /\ In e (box (ly_elem_start (LY r)) (ly_elem_width (LY r))) /\ In x (blk r e).
  Proof.
    intros Hx. pose proof pc_world as W.
    pose proof (C15_numbering_is_permutation size dof N G W) as (_ & _ & HB & O0 & OS & _ & HO & _).
    assert (Hq : 0 <= x / dof < N 0 * (N 1 * N 2)) by (split; [apply Z.div_pos; lia|apply Z.div_lt_upper_bound; lia]).
    destruct (HB _ Hq) as (t & (Ht & Et) & _).
    destruct (block_owner _ _ _ _ W (x / dof)) as (r & pos & Hr & Hpos & Epos).
    { unfold vol. replace (N 0 * N 1 * N 2) with (N 0 * (N 1 * N 2)) by ring. exact Hq. }
    assert (Hown : in_box (gr_lstart (G r)) (gr_lwidth (G r)) t).
    { apply HO; auto. rewrite Et, Epos. rewrite (off_S G r) by lia. lia. }
    destruct (setup_form _ _ _ _ _ _ _ _ S) as (n & Hn & HL & Hdim & Hz & HP & HLY).
    assert (K : forall d, 0 <= d < 3 -> exists ed, ly_elem_start (LY r) d <= ed < ly_elem_start (LY r) d + ly_elem_width (LY r) d /\
       basis_offset dim axes d ed <= coord t d < basis_offset dim axes d ed + nen d).
    { intros d Hd. pose proof (proj1 (in_box_coord _ _ _) Hown d Hd) as Hd'. revert Hd'. unfold G. cbn [grid_of gr_lstart gr_lwidth].
      rewrite (HLY r Hr). unfold layout_of. cbn [ly_node ly_elem_start ly_elem_width]. unfold basis_offset, nen, basis_nen.
      destruct (d <? dim) eqn:E; [|cbn; intros; exists 0; lia]. intros Hd'.
      destruct (setup_wf _ _ _ _ _ _ _ _ S d ltac:(lia)) as (l & L & Le).
      pose proof (pad_coords n r d Hn ltac:(lia) ltac:(lia)) as Hc. specialize (HP d ltac:(lia)).
      destruct (owned_active (axes d) l (pad 1 n d) (pad 0 (rank_coords n r) d) L Le HP Hc (coord t d) Hd') as (ed & E1 & E2).
      exists ed. split; [exact E1|lia]. }
    destruct (K 0 ltac:(lia)) as (i & Hi & Hi'). destruct (K 1 ltac:(lia)) as (j & Hj & Hj'). destruct (K 2 ltac:(lia)) as (k & Hk & Hk').
    exists r, (i,j,k). split; [exact Hr|]. split; [apply In_box; unfold in_box; auto|].
    apply in_blk. exists (tri (fun d => coord t d - elem_off dim axes (i,j,k) d)), (x mod dof).
    assert (EN : elem_node N (elem_off dim axes) (i,j,k) (tri (fun d => coord t d - elem_off dim axes (i,j,k) d)) = t).
    { unfold elem_node. replace (tadd (elem_off dim axes (i,j,k)) (tri (fun d => coord t d - elem_off dim axes (i,j,k) d))) with t; [apply modbox_id; auto|].
      apply tri_ext. intros d Hd. rewrite coord_tadd, coord_tri by auto. lia. }
    rewrite EN. split; [|split; [apply Z.mod_pos_bound; lia|split; [exact Hown|]]].
    - apply In_box, in_box_coord. intros d Hd. rewrite coord_tri by auto. rewrite elem_off_coord by auto. unfold zero3.
      assert (E : d = 0 \/ d = 1 \/ d = 2) by lia.
      destruct E as [-> | [-> | ->]]; [change (coord (i,j,k) 0) with i|change (coord (i,j,k) 1) with j|change (coord (i,j,k) 2) with k]; lia.
    - rewrite Et. apply Z.div_mod. lia.
  Qed.
  Variables (e0 : Z -> elem) (sizes : Z -> Z -> Z).
  Let elems := fun r => rank_elements (e0 r) dim (ly_elem_start (LY r)) (ly_elem_width (LY r)) (sizes r).
  Lemma ebe_blocks_form order : (forall r, In r order -> 0 <= r < size) -> ebe_blocks size G dof elems mapping order = spec_blocks order.
  Proof.
    intros Ho. unfold ebe_blocks, spec_blocks. rewrite !flat_map_concat_map. f_equal. apply map_ext_in. intros r Hr. specialize (Ho r Hr).
    unfold elems. rewrite (visited_box O g2 g3 maxint size dim axes user LY e0 sizes S r Ho). apply map_ext_in. intros e He. apply ebe_block_form; auto.
  Qed.
End Blocks.
