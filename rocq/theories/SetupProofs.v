From Coq Require Import ZArith List Bool Lia Sorted.
From Coq Require Import ZifyBool ZifyNat.
From Verif Require Import Prelude AxisModel AxisSpec AxisProofs AxisProofs2 PartModel PartSpec PartProofs SetupModel.
Import ListNotations.
Open Scope Z_scope.

(** ** the element list as a strictly increasing array *)
Lemma sorted_nth_gap : forall l, StronglySorted Z.lt l -> forall i j, (i <= j)%nat -> (j < length l)%nat ->
  nth i l 0 + Z.of_nat (j - i) <= nth j l 0.
Proof.
  induction l as [|a l IH]; intros HS i j Hij Hj; [simpl in Hj; lia|].
  inversion HS as [|? ? HS' HF]; subst. rewrite Forall_forall in HF. simpl in Hj.
  destruct j as [|j].
  - assert (i = 0%nat) by lia. subst. cbn. lia.
  - destruct i as [|i].
    + cbn [nth]. specialize (IH HS' 0%nat j ltac:(lia) ltac:(lia)).
      assert (In (nth 0 l 0) l) by (apply nth_In; lia). specialize (HF _ H). lia.
    + cbn [nth]. specialize (IH HS' i j ltac:(lia) ltac:(lia)). lia.
Qed.

Section Wf.
  Context {O : KnotOrd}.

  Definition wf (a : axis O) (l : list Z) : Prop :=
    ax_span a = Some l /\ axis_wf (ax_periodic a) (ax_p a) (ax_m a) (ax_U a) (ax_nnp a) (ax_nel a) l.

  Lemma span_at_gap : forall a l, wf a l -> forall i j, 0 <= i -> i <= j -> j < ax_nel a ->
    span_at a i + (j - i) <= span_at a j.
  Proof.
    intros a l (Hs & _ & (_ & HS) & Hn & _) i j Hi Hij Hj. unfold span_at. rewrite Hs.
    pose proof (sorted_nth_gap l HS (Z.to_nat i) (Z.to_nat j) ltac:(lia) ltac:(lia)). lia.
  Qed.

  Lemma span_at_elem : forall a l, wf a l -> forall i, 0 <= i < ax_nel a ->
    is_element (ax_p a) (ax_m a) (ax_U a) (span_at a i).
  Proof.
    intros a l (Hs & _ & (HI & _) & Hn & _) i Hi. unfold span_at. rewrite Hs. apply HI, nth_In. lia.
  Qed.

  Lemma span_at_surj : forall a l, wf a l -> forall k, is_element (ax_p a) (ax_m a) (ax_U a) k ->
    exists i, 0 <= i < ax_nel a /\ span_at a i = k.
  Proof.
    intros a l (Hs & _ & (HI & _) & Hn & _) k Hk. apply HI in Hk.
    apply (In_nth _ _ 0) in Hk. destruct Hk as (i & Hi & He). exists (Z.of_nat i).
    unfold span_at. rewrite Hs, Nat2Z.id. split; [lia|auto].
  Qed.

  (** consecutive elements are at most p apart: the knots in between are equal *)
  Lemma span_at_step : forall a l, wf a l -> forall i, 0 <= i -> i + 1 < ax_nel a ->
    span_at a (i+1) - span_at a i <= ax_p a.
  Proof.
    intros a l Hwf i Hi Hi1. pose proof Hwf as (Hs & (Hp & Hm & Hnd & Hc) & HL & Hn & _).
    assert (E1 : is_element (ax_p a) (ax_m a) (ax_U a) (span_at a i)) by (eapply span_at_elem; eauto; lia).
    assert (E2 : is_element (ax_p a) (ax_m a) (ax_U a) (span_at a (i+1))) by (eapply span_at_elem; eauto; lia).
    pose proof (elements_contiguous _ _ _ _ Hp Hm Hnd HL (Z.to_nat i) 0 ltac:(lia)) as HK.
    unfold span_at in *. rewrite Hs in *. replace (Z.to_nat (i+1)) with (S (Z.to_nat i)) in * by lia.
    set (k1 := nth (Z.to_nat i) l 0) in *. set (k2 := nth (S (Z.to_nat i)) l 0) in *.
    destruct E1 as [B1 _]. destruct E2 as [B2 _].
    destruct (Z.leb_spec (k2 - k1) (ax_p a)); auto. exfalso.
    specialize (Hc (ax_U a k2)).
    assert (HH : Z.of_nat (length (zseq (k1+1) (k2-k1))) <= count_eq (ax_U a) 1 (ax_m a - 1) (ax_U a k2)).
    { unfold count_eq. apply inj_le.
      apply NoDup_incl_length; [apply NoDup_zseq|].
      intros x Hx. apply in_zseq in Hx. apply filter_In. split; [apply in_zseq; lia|].
      apply keqb_spec, keq_le. apply keq_le in HK. destruct HK as [K1 K2]. split; [apply Hnd; lia|].
      apply kle_trans with (ax_U a (k1+1)); [exact K2|apply Hnd; lia]. }
    rewrite length_zseq in HH. lia.
  Qed.

  (** nnp in terms of the last element and the end multiplicity *)
  Lemma wf_nnp : forall a l, wf a l ->
    exists s, 1 <= s <= ax_p a /\
      ax_nnp a = (if ax_periodic a then (ax_m a - ax_p a) - (ax_p a + 1 - s) else ax_m a - ax_p a).
  Proof.
    intros a l (_ & (Hp & Hm & Hnd & Hc) & _ & _ & Hnnp).
    exists (count_eq (ax_U a) (ax_m a - ax_p a) (ax_m a - 1) (ax_U a (ax_m a - ax_p a))).
    rewrite <- end_multiplicity by auto.
    destruct (next_knot_up_spec (ax_m a) (ax_U a) (ax_m a - ax_p a) ltac:(lia)) as (H1 & _).
    split; [lia|]. rewrite Hnnp, <- end_multiplicity by auto. reflexivity.
  Qed.

  Lemma wf_ends : forall a l, wf a l -> ends_nonempty (ax_p a) (ax_m a) (ax_U a) ->
    1 <= ax_nel a /\ span_at a 0 = ax_p a /\ span_at a (ax_nel a - 1) = ax_m a - ax_p a - 1.
  Proof.
    intros a l Hwf [E1 E2]. pose proof Hwf as (Hs & (Hp & Hm & Hnd & Hc) & (HI & HS) & Hn & _).
    assert (X1 : is_element (ax_p a) (ax_m a) (ax_U a) (ax_p a)) by (split; [lia|auto]).
    assert (X2 : is_element (ax_p a) (ax_m a) (ax_U a) (ax_m a - ax_p a - 1)).
    { split; [lia|]. replace (ax_m a - ax_p a - 1 + 1) with (ax_m a - ax_p a) by lia. auto. }
    destruct (span_at_surj a l Hwf _ X1) as (i1 & Hi1 & HE1).
    destruct (span_at_surj a l Hwf _ X2) as (i2 & Hi2 & HE2).
    split; [lia|].
    assert (Y1 : is_element (ax_p a) (ax_m a) (ax_U a) (span_at a 0)) by (eapply span_at_elem; eauto; lia).
    assert (Y2 : is_element (ax_p a) (ax_m a) (ax_U a) (span_at a (ax_nel a - 1))) by (eapply span_at_elem; eauto; lia).
    destruct Y1 as [Y1 _]. destruct Y2 as [Y2 _].
    pose proof (span_at_gap a l Hwf 0 i1 ltac:(lia) ltac:(lia) ltac:(lia)).
    pose proof (span_at_gap a l Hwf i2 (ax_nel a - 1) ltac:(lia) ltac:(lia) ltac:(lia)).
    lia.
  Qed.

  Definition es P (a : axis O) r := dist_s P (ax_nel a) r.
  Definition ew P (a : axis O) r := dist_n P (ax_nel a) r.
  Definition nrange P (a : axis O) r := node_range a P r (ax_nel a) (es P a r) (ew P a r).
  Definition grange P (a : axis O) r := geom_range a (ax_nel a) (es P a r) (ew P a r).

  Lemma elem_block : forall P a r, 1 <= P <= ax_nel a -> 0 <= r < P ->
    1 <= ew P a r /\ 0 <= es P a r /\ es P a r + ew P a r <= ax_nel a /\
    (r < P-1 -> es P a (r+1) = es P a r + ew P a r) /\
    (r = P-1 -> es P a r + ew P a r = ax_nel a) /\ (r = 0 -> es P a r = 0) /\ (r < P-1 -> es P a r + ew P a r < ax_nel a).
  Proof.
    intros P a r HP Hr. unfold es, ew.
    pose proof (dist_tiles P (ax_nel a) ltac:(lia) ltac:(lia)) as HT.
    pose proof (tiles_bounds _ _ _ _ HT r Hr).
    pose proof (dist_pos P (ax_nel a) r ltac:(lia) ltac:(lia)).
    pose proof HT as (_ & Hz & _ & Hs & He).
    repeat (split; [solve [auto|lia|intros ->; auto|intros; apply Hs; lia]|]).
    intros Hlt. pose proof (tiles_mono _ _ _ _ HT r (P-1) ltac:(lia) ltac:(lia) ltac:(lia)).
    pose proof (dist_pos P (ax_nel a) (P-1) ltac:(lia) ltac:(lia)). lia.
  Qed.

  (** C12, one direction *)
  Lemma node_tiles : forall a l P, wf a l -> ends_nonempty (ax_p a) (ax_m a) (ax_U a) -> 1 <= P <= ax_nel a ->
    tiles P (ax_nnp a) (fun r => r_lstart (nrange P a r)) (fun r => r_lwidth (nrange P a r)) /\
    (forall r, 0 <= r < P -> 1 <= r_lwidth (nrange P a r)) /\
    (forall r, 0 <= r < P -> r_gstart (nrange P a r) <= r_lstart (nrange P a r) /\
       r_lstart (nrange P a r) + r_lwidth (nrange P a r) <= r_gstart (nrange P a r) + r_gwidth (nrange P a r)).
  Proof.
    intros a l P Hwf Hends HP.
    destruct (wf_ends a l Hwf Hends) as (Hnel & Hfirst & Hlast).
    destruct (wf_nnp a l Hwf) as (s & Hs & Hnnp).
    pose proof Hwf as (_ & (Hp & Hm & _) & _).
    assert (Hdat : forall r, 0 <= r < P ->
      let e := es P a r in let w := ew P a r in
      r_lstart (nrange P a r) = span_at a e - ax_p a /\
      r_gstart (nrange P a r) = span_at a e - ax_p a /\
      r_gwidth (nrange P a r) = span_at a (e + w - 1) + 1 - (span_at a e - ax_p a) /\
      (r < P-1 -> r_lwidth (nrange P a r) = span_at a (e + w) - span_at a e) /\
      (r = P-1 -> r_lwidth (nrange P a r) = ax_nnp a - (span_at a e - ax_p a))).
    { intros r Hr e w. destruct (elem_block P a r HP Hr) as (B1 & B2 & B3 & B4 & B5 & B6 & B7).
      fold e in B1, B2, B3, B4, B5, B6, B7. fold w in B1, B2, B3, B4, B5, B6, B7.
      unfold nrange, node_range, geom_range; fold e w; cbn [r_lstart r_gstart r_gwidth r_lwidth].
      repeat (split; [reflexivity|]). split.
      - intros Hlt. specialize (B7 Hlt). replace (r =? P-1) with false by lia.
        replace (e + w - 1 <? ax_nel a - 1) with true by lia.
        replace (e + w - 1 + 1) with (e + w) by lia. lia.
      - intros ->. rewrite Z.eqb_refl. reflexivity. }
    assert (Hw1 : forall r, 0 <= r < P -> 1 <= r_lwidth (nrange P a r)).
    { intros r Hr. destruct (Hdat r Hr) as (D1 & D2 & D3 & D4 & D5).
      destruct (elem_block P a r HP Hr) as (B1 & B2 & B3 & B4 & B5 & B6 & B7).
      destruct (Z.eq_dec r (P-1)) as [E|E].
      - rewrite (D5 E).
        pose proof (span_at_gap a l Hwf (es P a r) (ax_nel a - 1) ltac:(lia) ltac:(lia) ltac:(lia)).
        destruct (ax_periodic a); lia.
      - rewrite (D4 ltac:(lia)). specialize (B7 ltac:(lia)).
        pose proof (span_at_gap a l Hwf (es P a r) (es P a r + ew P a r) ltac:(lia) ltac:(lia) ltac:(lia)). lia. }
    split; [|split; [exact Hw1|]].
    - unfold tiles. split; [lia|]. split; [|split; [|split]].
      + destruct (Hdat 0 ltac:(lia)) as (D1 & _). rewrite D1.
        destruct (elem_block P a 0 HP ltac:(lia)) as (_ & _ & _ & _ & _ & B6 & _). rewrite (B6 eq_refl). lia.
      + intros r Hr. specialize (Hw1 r Hr). lia.
      + intros r Hr. destruct (Hdat r ltac:(lia)) as (D1 & _ & _ & D4 & _).
        destruct (Hdat (r+1) ltac:(lia)) as (D1' & _).
        destruct (elem_block P a r HP ltac:(lia)) as (_ & _ & _ & B4 & _).
        rewrite D1', D1, D4, B4 by lia. lia.
      + destruct (Hdat (P-1) ltac:(lia)) as (D1 & _ & _ & _ & D5). rewrite D1, (D5 eq_refl). lia.
    - intros r Hr. destruct (Hdat r Hr) as (D1 & D2 & D3 & D4 & D5).
      destruct (elem_block P a r HP Hr) as (B1 & B2 & B3 & B4 & B5 & B6 & B7).
      rewrite D1, D2, D3. split; [lia|].
      destruct (Z.eq_dec r (P-1)) as [E|E].
      + rewrite (D5 E). rewrite (B5 E). rewrite Hlast. destruct (ax_periodic a); lia.
      + rewrite (D4 ltac:(lia)). specialize (B7 ltac:(lia)).
        pose proof (span_at_step a l Hwf (es P a r + ew P a r - 1) ltac:(lia) ltac:(lia)).
        replace (es P a r + ew P a r - 1 + 1) with (es P a r + ew P a r) in * by lia. lia.
  Qed.

  (** geometry nodes: owned ranges tile 0..n and lie in the ghosted range *)
  Lemma geom_tiles : forall a l P, wf a l -> ends_nonempty (ax_p a) (ax_m a) (ax_U a) -> 1 <= P <= ax_nel a ->
    tiles P (ax_m a - ax_p a) (fun r => r_lstart (grange P a r)) (fun r => r_lwidth (grange P a r)) /\
    (forall r, 0 <= r < P -> r_size (grange P a r) = ax_m a - ax_p a /\
       r_gstart (grange P a r) <= r_lstart (grange P a r) /\ 1 <= r_lwidth (grange P a r) /\
       r_lstart (grange P a r) + r_lwidth (grange P a r) <= r_gstart (grange P a r) + r_gwidth (grange P a r)).
  Proof.
    intros a l P Hwf Hends HP.
    destruct (wf_ends a l Hwf Hends) as (Hnel & Hfirst & Hlast).
    pose proof Hwf as (_ & (Hp & Hm & _) & _).
    assert (Hdat : forall r, 0 <= r < P ->
      let e := es P a r in let w := ew P a r in
      r_size (grange P a r) = ax_m a - ax_p a /\
      r_lstart (grange P a r) = span_at a e - ax_p a /\
      r_gstart (grange P a r) = span_at a e - ax_p a /\
      r_gwidth (grange P a r) = span_at a (e + w - 1) + 1 - (span_at a e - ax_p a) /\
      (r < P-1 -> r_lwidth (grange P a r) = span_at a (e + w) - span_at a e) /\
      (r = P-1 -> r_lwidth (grange P a r) = ax_m a - ax_p a - (span_at a e - ax_p a))).
    { intros r Hr e w. destruct (elem_block P a r HP Hr) as (B1 & B2 & B3 & B4 & B5 & B6 & B7).
      fold e in B1, B2, B3, B4, B5, B6, B7. fold w in B1, B2, B3, B4, B5, B6, B7.
      unfold grange, geom_range; fold e w; cbn [r_size r_lstart r_gstart r_gwidth r_lwidth].
      split; [lia|]. repeat (split; [reflexivity|]). split.
      - intros Hlt. specialize (B7 Hlt).
        replace (e + w - 1 <? ax_nel a - 1) with true by lia.
        replace (e + w - 1 + 1) with (e + w) by lia. lia.
      - intros E. specialize (B5 E). replace (e + w - 1 <? ax_nel a - 1) with false by lia.
        replace (e + w - 1) with (ax_nel a - 1) by lia. lia. }
    assert (Hw1 : forall r, 0 <= r < P -> 1 <= r_lwidth (grange P a r)).
    { intros r Hr. destruct (Hdat r Hr) as (D0 & D1 & D2 & D3 & D4 & D5).
      destruct (elem_block P a r HP Hr) as (B1 & B2 & B3 & B4 & B5 & B6 & B7).
      destruct (Z.eq_dec r (P-1)) as [E|E].
      - rewrite (D5 E).
        pose proof (span_at_gap a l Hwf (es P a r) (ax_nel a - 1) ltac:(lia) ltac:(lia) ltac:(lia)). lia.
      - rewrite (D4 ltac:(lia)). specialize (B7 ltac:(lia)).
        pose proof (span_at_gap a l Hwf (es P a r) (es P a r + ew P a r) ltac:(lia) ltac:(lia) ltac:(lia)). lia. }
    split.
    - unfold tiles. split; [lia|]. split; [|split; [|split]].
      + destruct (Hdat 0 ltac:(lia)) as (_ & D1 & _). rewrite D1.
        destruct (elem_block P a 0 HP ltac:(lia)) as (_ & _ & _ & _ & _ & B6 & _). rewrite (B6 eq_refl). lia.
      + intros r Hr. specialize (Hw1 r Hr). lia.
      + intros r Hr. destruct (Hdat r ltac:(lia)) as (_ & D1 & _ & _ & D4 & _).
        destruct (Hdat (r+1) ltac:(lia)) as (_ & D1' & _).
        destruct (elem_block P a r HP ltac:(lia)) as (_ & _ & _ & B4 & _).
        rewrite D1', D1, D4, B4 by lia. lia.
      + destruct (Hdat (P-1) ltac:(lia)) as (_ & D1 & _ & _ & _ & D5). rewrite D1, (D5 eq_refl). lia.
    - intros r Hr. destruct (Hdat r Hr) as (D0 & D1 & D2 & D3 & D4 & D5).
      destruct (elem_block P a r HP Hr) as (B1 & B2 & B3 & B4 & B5 & B6 & B7).
      split; [exact D0|]. split; [lia|]. split; [apply Hw1; auto|].
      rewrite D1, D2, D3.
      destruct (Z.eq_dec r (P-1)) as [E|E].
      + rewrite (D5 E). rewrite (B5 E). rewrite Hlast. lia.
      + rewrite (D4 ltac:(lia)). specialize (B7 ltac:(lia)).
        pose proof (span_at_step a l Hwf (es P a r + ew P a r - 1) ltac:(lia) ltac:(lia)).
        replace (es P a r + ew P a r - 1 + 1) with (es P a r + ew P a r) in * by lia. lia.
  Qed.

  (** C13: the ghosted range is exactly the hull of the closures of the local elements; needs no
      hypothesis on the end intervals. *)
  Lemma ghost_covers_closures : forall a l P r e A, wf a l -> 1 <= P <= ax_nel a -> 0 <= r < P ->
    es P a r <= e < es P a r + ew P a r -> active (ax_p a) A (span_at a e) ->
    r_gstart (nrange P a r) <= A < r_gstart (nrange P a r) + r_gwidth (nrange P a r).
  Proof.
    intros a l P r e A Hwf HP Hr He HA. unfold active in HA.
    destruct (elem_block P a r HP Hr) as (B1 & B2 & B3 & _).
    unfold nrange, node_range, geom_range; cbn [r_gstart r_gwidth].
    pose proof (span_at_gap a l Hwf (es P a r) e ltac:(lia) ltac:(lia) ltac:(lia)).
    pose proof (span_at_gap a l Hwf e (es P a r + ew P a r - 1) ltac:(lia) ltac:(lia) ltac:(lia)).
    lia.
  Qed.

  (** ** set-up routines give consistent axes *)
  Lemma set_knots_wf : forall (a a' : axis O) m U, axis_set_knots m U a = (Ok, a') -> exists l, wf a' l.
  Proof.
    intros a a' m U H. pose proof (set_knots_exact a m U) as HE. rewrite H in HE.
    destruct HE as (H1 & H2 & _). destruct (H2 eq_refl) as (Ep & Em & EU & Eper).
    apply proj1 in H1. specialize (H1 eq_refl).
    destruct (set_knots_spans a m U a' H) as (l & L1 & L2 & L3).
    destruct (set_knots_nnp a m U a' H) as (N1 & _).
    exists l. unfold wf, axis_wf. rewrite Ep, Em, EU, Eper.
    split; [auto|]. split; [auto|]. split; [auto|]. split; [auto|].
    rewrite N1. destruct (ax_periodic a); lia.
  Qed.
End Wf.

(** ** ranks and boxes in three directions *)
Lemma pad_coords : forall n r i, Forall (fun a => 1 <= a) n -> 0 <= r < zprod n -> 0 <= i ->
  0 <= pad 0 (rank_coords n r) i < pad 1 n i.
Proof.
  intros n r i HF Hr Hi. unfold pad.
  destruct (rank_coords_in_grid n r HF ltac:(lia)) as [HL HG].
  revert HL HG. generalize (rank_coords n r) as c. clear Hr. intros c HL HG.
  generalize (Z.to_nat i) as k. induction HG as [|x y n' c' Hxy HG IH]; intros [|k]; cbn in *; try lia.
  inversion HF; subst. apply IH; auto.
Qed.

Lemma nth_ext_pad : forall (a b : list Z) d, length a = length b ->
  (forall i, 0 <= i < Z.of_nat (length a) -> pad d a i = pad d b i) -> a = b.
Proof.
  intros a b d HL H. apply nth_ext with d d; auto. intros k Hk.
  specialize (H (Z.of_nat k) ltac:(lia)). unfold pad in H. rewrite Nat2Z.id in H. exact H.
Qed.

Section Boxes.
  (** [s i c], [w i c]: start and width of block [c] in direction [i]. *)
  Variables (n : list Z) (N : Z -> Z) (s w : Z -> Z -> Z).
  Hypothesis Hn : Forall (fun a => 1 <= a) n.
  Hypothesis HT : forall i, 0 <= i < Z.of_nat (length n) -> tiles (pad 1 n i) (N i) (s i) (w i).

  Lemma boxes_unique : forall x, length x = length n ->
    (forall i, 0 <= i < Z.of_nat (length n) -> 0 <= pad 0 x i < N i) ->
    exists! r, 0 <= r < zprod n /\
      forall i, 0 <= i < Z.of_nat (length n) ->
        let c := pad 0 (rank_coords n r) i in s i c <= pad 0 x i < s i c + w i c.
  Proof.
    intros x Hx Hin.
    assert (Hex : exists c, length c = length n /\ forall i, 0 <= i < Z.of_nat (length n) ->
               0 <= pad 0 c i < pad 1 n i /\ s i (pad 0 c i) <= pad 0 x i < s i (pad 0 c i) + w i (pad 0 c i)).
    { assert (HK : forall k, (k <= length n)%nat -> exists c, length c = k /\ forall i, 0 <= i < Z.of_nat k ->
               0 <= pad 0 c i < pad 1 n i /\ s i (pad 0 c i) <= pad 0 x i < s i (pad 0 c i) + w i (pad 0 c i)).
      { induction k as [|k IH]; intros Hk.
        - exists []. split; [auto|]. intros; lia.
        - destruct (IH ltac:(lia)) as (c & Hc & HcP).
          destruct (tiles_cover _ _ _ _ (HT (Z.of_nat k) ltac:(lia)) (pad 0 x (Z.of_nat k)) (Hin (Z.of_nat k) ltac:(lia))) as (q & Hq1 & Hq2).
          exists (c ++ [q]). split; [rewrite app_length; cbn; lia|].
          intros i Hi. destruct (Z.eq_dec i (Z.of_nat k)) as [->|Hne].
          + assert (E : pad 0 (c ++ [q]) (Z.of_nat k) = q).
            { unfold pad. rewrite Nat2Z.id, app_nth2 by lia. rewrite Hc, Nat.sub_diag. reflexivity. }
            rewrite E. auto.
          + assert (E : pad 0 (c ++ [q]) i = pad 0 c i).
            { unfold pad. apply app_nth1. lia. }
            rewrite E. apply HcP. lia. }
      apply (HK (length n)). lia. }
    destruct Hex as (c & Hc & HcP).
    assert (Hg : in_grid n c).
    { split; auto. clear - Hc HcP. assert (HH : forall i, 0 <= i < Z.of_nat (length n) -> 0 <= pad 0 c i < pad 1 n i) by (intros; apply HcP; auto).
      clear HcP. revert c Hc HH. induction n as [|a n' IH]; intros [|b c] Hc HH; cbn in Hc; try lia; constructor.
      - specialize (HH 0). unfold pad in HH. cbn in HH. apply HH. lia.
      - apply IH; [lia|]. intros i Hi. specialize (HH (i+1)). unfold pad in *.
        replace (Z.to_nat (i+1)) with (S (Z.to_nat i)) in HH by lia. cbn [nth length] in HH. apply HH. lia. }
    destruct (rank_coords_grid_index n c Hn Hg) as [K1 K2].
    exists (grid_index n c). split.
    - split; auto. intros i Hi. cbv zeta. rewrite K1. apply HcP; auto.
    - intros r [Hr HrP]. rewrite <- (grid_index_rank_coords n r Hn Hr). f_equal.
      symmetry. apply nth_ext_pad with 0.
      + destruct (rank_coords_in_grid n r Hn ltac:(lia)) as [HL _]. lia.
      + intros i Hi. destruct (rank_coords_in_grid n r Hn ltac:(lia)) as [HL _]. rewrite HL in Hi.
        eapply (tiles_disjoint _ _ _ _ (HT i Hi) (pad 0 x i)).
        * apply pad_coords; auto. lia.
        * apply HcP; auto.
        * apply HrP; auto.
        * apply HcP; auto.
  Qed.
End Boxes.

(** ** stage 1 *)
Section Stage1.
  Context {O : KnotOrd}.
  Variable g2 : Z -> Z -> Z -> Z.
  Variable g3 : Z -> Z -> Z -> Z -> Z.
  Hypothesis g2_nonneg : forall a b c, 0 <= g2 a b c.
  Hypothesis g3_nonneg : forall a b c d, 0 <= g3 a b c d.
  Variables (maxint size dim : Z) (axes : Z -> axis O) (user : list Z).

  Lemma stage1_spec : forall r ly, stage1 g2 g3 maxint size r dim axes user = (Ok, Some ly) ->
    exists n, Forall (fun a => 1 <= a) n /\ Z.of_nat (length n) = dim /\ 1 <= dim <= 3 /\ zprod n = size /\
      0 <= r < size /\
      (forall i, 0 <= i < dim -> 1 <= pad 1 n i <= ax_nel (axes i)) /\
      (forall r', 0 <= r' < size ->
         stage1 g2 g3 maxint size r' dim axes user = (Ok, Some (layout_of dim axes n (rank_coords n r')))).
  Proof.
    intros r ly H. unfold stage1 in *.
    set (N := map (fun i => ax_nel (axes i)) (zseq 0 dim)) in *.
    destruct (partition g2 g3 maxint size r N user) as [[st n] c] eqn:E.
    destruct st; try discriminate. inversion H; subst ly; clear H.
    destruct (partition_spec g2 g2_nonneg g3 g3_nonneg _ _ _ _ _ _ _ E) as (A & B & C & D & F & G & _ & I & _).
    assert (LN : length N = Z.to_nat dim) by (unfold N; rewrite map_length, length_zseq; reflexivity).
    exists n. split; [auto|]. split; [lia|]. split; [lia|]. split; [auto|]. split; [auto|]. split.
    - intros i Hi. unfold pad.
      assert (K : nth (Z.to_nat i) N 1 = ax_nel (axes i)).
      { unfold N. rewrite nth_indep with (d' := ax_nel (axes 0)) by (rewrite map_length, length_zseq; lia).
        rewrite map_nth with (f := fun i => ax_nel (axes i)). rewrite nth_zseq by lia. f_equal. f_equal. lia. }
      rewrite <- K. clear - I G Hi C LN. 
      assert (Hk : (Z.to_nat i < length n)%nat) by lia. clear Hi C LN. revert Hk.
      generalize (Z.to_nat i) as k. induction I as [|x y N' n' Hxy I IH]; intros [|k] Hk; cbn in *; try lia;
      inversion G; subst; try lia. apply IH; auto. lia.
    - intros r' Hr'. erewrite partition_rank_indep by eauto. reflexivity.
  Qed.

  Lemma stage1_unique : forall r ly, stage1 g2 g3 maxint size r dim axes user = (Ok, Some ly) ->
    forall (rg : layout -> Z -> Z * Z) (N : Z -> Z) (s w : Z -> Z -> Z -> Z),
    (* the range of direction i depends on the process count and coordinate only *)
    (forall n c i, 0 <= i < dim -> rg (layout_of dim axes n c) i = (s i (pad 1 n i) (pad 0 c i), w i (pad 1 n i) (pad 0 c i))) ->
    (forall i P, 0 <= i < dim -> 1 <= P <= ax_nel (axes i) -> tiles P (N i) (s i P) (w i P)) ->
    forall x, (forall i, 0 <= i < dim -> 0 <= x i < N i) ->
    exists! r, 0 <= r < size /\ exists ly, stage1 g2 g3 maxint size r dim axes user = (Ok, Some ly) /\
      forall i, 0 <= i < dim -> fst (rg ly i) <= x i < fst (rg ly i) + snd (rg ly i).
  Proof.
    intros r ly H rg N s w Hrg HT x Hx.
    destruct (stage1_spec r ly H) as (n & Hn & HL & Hdim & Hz & Hr & HP & Hall).
    set (xl := map x (zseq 0 dim)).
    assert (Hxl : forall i, 0 <= i < dim -> pad 0 xl i = x i).
    { intros i Hi. unfold pad, xl. rewrite nth_indep with (d' := x 0) by (rewrite map_length, length_zseq; lia).
      rewrite map_nth, nth_zseq by lia. f_equal. lia. }
    destruct (boxes_unique n N (fun i c => s i (pad 1 n i) c) (fun i c => w i (pad 1 n i) c) Hn) with (x := xl)
      as (r0 & (Hr0 & HB) & Huniq).
    - intros i Hi. apply HT; [lia|]. apply HP; lia.
    - unfold xl. rewrite map_length, length_zseq. lia.
    - intros i Hi. rewrite Hxl by lia. apply Hx; lia.
    - exists r0. split.
      + split; [lia|]. eexists. split; [apply Hall; lia|].
        intros i Hi. rewrite Hrg by auto. cbn [fst snd]. specialize (HB i ltac:(lia)). cbv zeta in HB.
        rewrite Hxl in HB by lia. exact HB.
      + intros r1 (Hr1 & ly1 & E1 & HB1). apply Huniq. split; [lia|].
        intros i Hi. cbv zeta. rewrite (Hall r1 Hr1) in E1. inversion E1; subst ly1.
        specialize (HB1 i ltac:(lia)). rewrite Hrg in HB1 by lia. cbn [fst snd] in HB1.
        rewrite Hxl by lia. exact HB1.
  Qed.
End Stage1.
