(** The remaining calls, the states a program can be in, and the theorems behind C109 and C110. *)
From Coq Require Import ZArith List Bool Lia FunctionalExtensionality.
Import ListNotations.
From Verif Require Import RefModel RefSpec RefProofs RefProofs2 RefProofs3.
Local Open Scope Z_scope.

Definition Kept (u : owner) (h h' : heap) : Prop := J h' u /\ G h h'.

Lemma len_slots h u x : J h u -> live h x -> length (slots h x) = arity (o_kind (h_obj h x)).
Proof. intros H L. exact (J_len h u H x L). Qed.

Lemma IGASetForm_ok h u i f : J h u -> live h i -> o_kind (h_obj h i) = KIga -> live h f -> o_kind (h_obj h f) = KForm ->
  ok (IGASetForm i f) h (fun _ h' => Kept u h h').
Proof.
  intros H Li Ki Lf Kf. unfold IGASetForm. apply ok_bind. apply ok_get; auto.
  destruct (match nth s_form (slots h i) None with Some g => f =? g | None => false end).
  { apply ok_ret. split; [auto|apply G_refl]. }
  eapply ok_mono; [apply (swap_ok h u i s_form f H Li Lf)|].
  - rewrite Ki. unfold s_form. cbn. lia.
  - unfold rk. rewrite Ki, Kf. cbn. lia.
  - intros [] h' [J' [N [O [K [S [W D]]]]]]. split; auto. eapply (slot_G h h' i s_form); eauto.
    + rewrite (len_slots h u i H Li), Ki. unfold s_form. cbn. lia.
    + split; [congruence|]. intros _ [E|E]; discriminate.
Qed.

Lemma free_array_ok h u i n : J h u -> live h i -> o_kind (h_obj h i) = KIga -> (n < 13)%nat ->
  ok (free_array i n) h (fun _ h' => J h' u /\ live h' i /\ o_kind (h_obj h' i) = KIga).
Proof.
  intros H Li Ki Hn. change (free_array i n) with (drop_slot i n).
  eapply ok_mono; [apply (drop_slot_ok h u i n H Li)|].
  - rewrite Ki. exact Hn.
  - intros [] h' [J' [N [O _]]]. split; auto. split; [exact (IsO_live _ _ _ _ _ O)|]. destruct O as [-> _]. exact Ki.
Qed.

Lemma free_both_ok h u i n m : J h u -> live h i -> o_kind (h_obj h i) = KIga -> (n < 13)%nat -> (m < 13)%nat ->
  ok (free_array i n;; free_array i m) h (fun _ h' => J h' u).
Proof.
  intros H Li Ki Hn Hm. apply ok_bind. eapply ok_mono; [apply (free_array_ok h u i n H Li Ki Hn)|].
  intros [] h1 [J1 [L1 K1]]. eapply ok_mono; [apply (free_array_ok h1 u i m J1 L1 K1 Hm)|]. intros [] h2 [J2 _]. exact J2.
Qed.

Lemma ensure_array_ok h u i n : J h u -> live h i -> o_kind (h_obj h i) = KIga -> (n < 13)%nat ->
  ok (ensure_array i n) h (fun _ h' => Kept u h h' /\ live h' i /\ o_kind (h_obj h' i) = KIga).
Proof.
  intros H Li Ki Hn. unfold ensure_array. apply ok_bind. apply ok_get; auto.
  destruct (nth n (slots h i) None) as [a|] eqn:E.
  - apply ok_ret. split; [split; [auto|apply G_refl]|auto].
  - eapply ok_mono; [apply (attach_ok h u i n KArr H Li)|]; auto.
    + rewrite Ki. exact Hn.
    + unfold rk. rewrite Ki. cbn. lia.
    + discriminate.
    + intros [] h' [J' [C' [L' O']]]. split; [split; [auto|]|split; [auto|destruct O' as [-> _]; exact Ki]].
      eapply (Ch_G_set h h' i n); eauto.
      * apply (J_range h u H i Li).
      * rewrite (len_slots h u i H Li), Ki. exact Hn.
      * split; [congruence|auto].
Qed.

Lemma IGALoadGeometry_ok h u i : J h u -> live h i -> o_kind (h_obj h i) = KIga ->
  ok (IGALoadGeometry i) h (fun _ h' => Kept u h h').
Proof.
  intros H Li Ki. unfold IGALoadGeometry. apply ok_bind.
  eapply ok_mono; [apply (ensure_array_ok h u i s_geoX H Li Ki); unfold s_geoX; lia|].
  intros [] h1 [[J1 G1] [L1 K1]].
  eapply ok_mono; [apply (ensure_array_ok h1 u i s_ratW J1 L1 K1); unfold s_ratW; lia|].
  intros [] h2 [[J2 G2] _]. split; auto. eapply G_trans; eauto.
Qed.

Lemma set_G h u h' x n v : J h u -> live h x -> (n < arity (o_kind (h_obj h x)))%nat -> Ch (eq x) h h' ->
  IsO (h_obj h' x) (o_kind (h_obj h x)) (list_set (slots h x) n v) (o_weak (h_obj h x)) -> harmless h x n -> G h h'.
Proof.
  intros H L Hn C O P. eapply Ch_G_set; eauto; [apply (J_range h u H x L)|]. now rewrite (len_slots h u x H L).
Qed.

Lemma dm_harmless h d n : o_kind (h_obj h d) = KDm -> harmless h d n.
Proof. intros K. split; congruence. Qed.

Lemma DMIGASetIGA_ok h u d i : J h u -> live h d -> o_kind (h_obj h d) = KDm -> live h i -> o_kind (h_obj h i) = KIga ->
  ok (DMIGASetIGA d i) h (fun _ h' => Kept u h h').
Proof.
  intros H Ld Kd Li Ki. unfold DMIGASetIGA. apply ok_bind. apply ok_get; auto.
  destruct (nth 0 (slots h d) None) as [j|] eqn:E.
  - destruct (Z.eqb_spec j i) as [->|Ne]; cbn [negb]; [|apply ok_err].
    apply ok_bind. eapply ok_mono; [apply (S_reference h u i H Li)|]. intros [] h1 [J1 [N1 A1]]. cbv beta.
    apply ok_bind. cbn [XDestroy].
    assert (Ld1 : live h1 d) by (eapply live_Sm; eauto).
    assert (S1 : slots h1 d = slots h d) by exact (slots_Sm _ _ _ (A1 d)).
    eapply ok_mono; [apply (S_destroy_held h1 _ i J1)|].
    + rewrite plus_same. pose proof (J_u h u H i). lia.
    + apply (cnt_ge h1 _ d i J1 Ld1). rewrite S1. exact (nth_In_some _ _ _ E).
    + intros [] h2 [J2 A2]. cbv beta. destruct A2 as [N2 A2].
      assert (A : AllSm h h2) by (split; [congruence|intros z; eapply Sm_trans; [apply A1|apply A2]]).
      pose proof (proj2 A d) as Sd. assert (Ld2 : live h2 d) by (eapply live_Sm; eauto).
      assert (Kd2 : o_kind (h_obj h2 d) = KDm) by (destruct Sd as [-> _]; exact Kd).
      assert (J2' : J h2 u) by (eapply J_ext; [|exact J2]; intros z; rewrite !plus_occ1; lia).
      eapply ok_mono; [apply (S_set h2 u u d 0 (Some i) J2' Ld2)|].
      * rewrite Kd2. cbn. lia.
      * cbn. unfold rk. rewrite Kd2. destruct (proj2 A i) as [-> _]. rewrite Ki. cbn. lia.
      * intros z. rewrite (slots_Sm _ _ _ Sd), E. lia.
      * exact (J_u h u H).
      * intros [] h3 [J3 [C3 [N3 [O3 X3]]]]. split; auto. eapply G_trans; [apply Ch_G, AllSm_Ch; exact A|].
        eapply (set_G h2 u); eauto; [rewrite Kd2; cbn; lia|now apply dm_harmless].
  - apply ok_bind. eapply ok_mono; [apply (S_reference h u i H Li)|]. intros [] h1 [J1 A1]. cbv beta. destruct A1 as [N1 A1].
    apply ok_bind. cbn [XDestroy]. apply ok_ret. pose proof (A1 d) as Sd. assert (Ld1 : live h1 d) by (eapply live_Sm; eauto).
    assert (Kd1 : o_kind (h_obj h1 d) = KDm) by (destruct Sd as [-> _]; exact Kd).
    eapply ok_mono; [apply (S_store h1 _ d 0 i J1 Ld1)|].
    + rewrite Kd1. cbn. lia.
    + unfold rk. rewrite Kd1. destruct (A1 i) as [-> _]. rewrite Ki. cbn. lia.
    + rewrite (slots_Sm _ _ _ Sd). exact E.
    + rewrite plus_same. pose proof (J_u h u H i). lia.
    + intros [] h3 [J3 [C3 [N3 [O3 X3]]]]. split; [eapply J_ext; [|exact J3]; intros z; rewrite !plus_occ1; lia|].
      eapply G_trans; [apply Ch_G, AllSm_Ch; split; eauto|].
      eapply (set_G h1); eauto; [rewrite Kd1; cbn; lia|now apply dm_harmless].
Qed.

Lemma DMSetUp_ok h u d : J h u -> live h d -> o_kind (h_obj h d) = KDm -> ok (DMSetUp d) h (fun _ h' => Kept u h h').
Proof.
  intros H Ld Kd. unfold DMSetUp. apply ok_bind. apply ok_get; auto.
  destruct (nth 0 (slots h d) None) as [j|] eqn:E.
  - apply ok_touch; [eapply live_slot; [exact H|exact Ld|exact (nth_In_some _ _ _ E)]|]. split; [auto|apply G_refl].
  - apply ok_bind. eapply ok_mono; [apply (IGACreate_ok h u H)|]. intros i h1 [sl [M1 _]]. cbv beta.
    pose proof M1 as [J1 [C1 [E1 [N1 O1]]]]. pose proof (J_range h u H d Ld) as Rd.
    assert (Sd : Sm (h_obj h d) (h_obj h1 d)) by (apply (made_old _ _ _ _ _ _ _ d M1); lia).
    assert (Ld1 : live h1 d) by (eapply live_Sm; eauto).
    assert (Kd1 : o_kind (h_obj h1 d) = KDm) by (destruct Sd as [-> _]; exact Kd).
    eapply ok_mono; [apply (S_store h1 _ d 0 i J1 Ld1)|].
    + rewrite Kd1. cbn. lia.
    + unfold rk. rewrite Kd1. destruct O1 as [-> _]. cbn. lia.
    + rewrite (slots_Sm _ _ _ Sd). exact E.
    + rewrite plus_same. pose proof (J_u h u H i). lia.
    + intros [] h3 [J3 [C3 [N3 [O3 X3]]]]. split; [eapply J_ext; [|exact J3]; intros z; rewrite !plus_occ1; lia|].
      eapply G_trans; [apply Ch_G; exact C1|].
      eapply (set_G h1); eauto; [rewrite Kd1; cbn; lia|now apply dm_harmless].
Qed.

Lemma DMClone_ok h u d : J h u -> live h d -> ok (DMClone d) h (New h u).
Proof.
  intros H Ld. unfold DMClone. apply ok_bind.
  eapply ok_mono; [apply (alloc_made h u KDm H); discriminate|]. intros e h1 M1. cbv beta.
  pose proof M1 as [J1 [C1 [E1 [N1 O1]]]].
  assert (Hd : d < h_next h) by apply (J_range h u H d Ld).
  pose proof (made_old _ _ _ _ _ _ _ d M1 Hd) as Sd. assert (Ld1 : live h1 d) by (eapply live_Sm; eauto).
  apply ok_bind. apply ok_get; auto.
  destruct (nth 0 (slots h1 d) None) as [i|] eqn:Ei; [|apply ok_err].
  pose proof (live_slot h1 _ d i J1 Ld1 (nth_In_some _ _ _ Ei)) as Li.
  apply ok_bind. eapply ok_mono; [apply (IGAClone_ok h1 _ J1 i Li)|]. intros n h2 [sl [M2 _]]. cbv beta.
  destruct (made_then _ _ _ _ _ _ _ _ _ _ _ _ M1 M2) as [O2 [Ne [C2 J2]]]. pose proof O2 as [K2 [F2 [S2 W2]]].
  pose proof M2 as [_ [_ [En [Ln On]]]].
  apply ok_bind.
  assert (Eq : DMIGASetIGA e n h2 = hold e 0 n h2).
  { unfold DMIGASetIGA, bind, get_slot. rewrite F2, S2. cbn. reflexivity. }
  unfold ok at 1. rewrite Eq. change (match hold e 0 n h2 with Done a h' => _ a h' | Failed _ => True | Fault => False end)
    with (ok (hold e 0 n) h2 (fun _ h' => ok (destroy depth n;; DMSetUp e;; ret e) h' (New h u))).
  eapply ok_mono; [apply (hold_ok h2 _ e 0 n J2)|]; auto.
  { exact (IsO_live _ _ _ _ _ On). } { rewrite K2. cbn. lia. } { unfold rk. rewrite K2. destruct On as [-> _]. cbn. lia. }
  { unfold slots. rewrite S2. reflexivity. }
  intros [] h3 [J3 [C3 [N3 [A3 O3]]]]. cbv beta. rewrite K2, W2 in O3. unfold slots in O3. rewrite S2 in O3. cbn [list_set repeat arity] in O3.
  apply ok_bind. eapply ok_mono; [eapply (made_drop u h e KDm _ _ n h3 J3)|]; auto.
  - eapply Ch_trans; [exact C2|exact C3|]. intros z <-. right; lia.
  - lia.
  - exact O3.
  - cbn; auto.
  - exact (J_u h u H).
  - intros [] h4 [M4 _]. cbv beta. pose proof M4 as [J4 [C4 [_ [_ O4]]]]. pose proof O4 as [K4 [F4 [S4 _]]].
    apply ok_bind. unfold DMSetUp. apply ok_bind. apply ok_get; [exact F4|]. unfold slots. rewrite S4. cbn [nth].
    apply ok_touch; [|apply ok_ret; split; auto].
    apply (live_slot h4 _ e n J4 F4). unfold slots. rewrite S4. cbn; auto.
Qed.

(** * Probes *)
Definition WInv (h : heap) : Prop :=
  forall x, live h x -> o_kind (h_obj h x) = KProbe ->
  exists i, nth 1 (slots h x) None = Some i /\ o_kind (h_obj h i) = KIga /\
    forall w, In w (o_weak (h_obj h x)) -> exists n, (n = s_ratW \/ n = s_geoX) /\ nth n (slots h i) None = Some w.

Lemma WInv_G h u h' u' : J h u -> J h' u' -> G h h' -> WInv h -> WInv h'.
Proof.
  intros H H' Gg W x Lx Kx. pose proof (J_range h' u' H' x Lx) as Rx.
  destruct (Z_lt_le_dec x (h_next h)) as [Hx|Hx].
  2: { exfalso. exact (g_new _ _ Gg x ltac:(lia) Kx). }
  rewrite (g_kind _ _ Gg x Hx) in Kx.
  assert (Lx0 : live h x).
  { destruct (live_dec h x) as [L|D]; auto. apply (g_dead _ _ Gg x Hx) in D. unfold live in Lx. congruence. }
  destruct (W x Lx0 Kx) as [i [E [Ki Wi]]].
  pose proof (live_slot h u x i H Lx0 (nth_In_some _ _ _ E)) as Li. pose proof (J_range h u H i Li) as Ri.
  exists i. split; [rewrite (g_probe _ _ Gg x Hx Kx); exact E|]. split; [rewrite (g_kind _ _ Gg) by lia; exact Ki|].
  intros w Iw. rewrite (g_weak _ _ Gg x Hx) in Iw. destruct (Wi w Iw) as [n [Hn En]]. exists n. split; auto.
  apply (g_iga _ _ Gg); auto; lia.
Qed.

Lemma IGAProbeSetVec_ok h u p v : J h u -> live h p -> o_kind (h_obj h p) = KProbe -> live h v -> o_kind (h_obj h v) = KVec ->
  ok (IGAProbeSetVec p v) h (fun _ h' => Kept u h h').
Proof.
  intros H Lp Kp Lv Kv. unfold IGAProbeSetVec.
  eapply ok_mono; [apply (swap_ok h u p 0 v H Lp Lv)|].
  - rewrite Kp. cbn. lia.
  - unfold rk. rewrite Kp, Kv. cbn. lia.
  - intros [] h' [J' [N [O [K [S [W D]]]]]]. split; auto. eapply (slot_G h h' p 0%nat); eauto.
    + rewrite (len_slots h u p H Lp), Kp. cbn. lia.
    + split; [lia|congruence].
Qed.

Lemma IGAProbeCreate_ok h u i v : J h u -> live h i -> o_kind (h_obj h i) = KIga ->
  (match v with Some v => live h v /\ o_kind (h_obj h v) = KVec | None => True end) ->
  ok (IGAProbeCreate i v) h (fun p h' => J h' (plus u p 1) /\ (WInv h -> WInv h') /\ nth 1 (slots h' p) None = Some i).
Proof.
  intros H Li Ki Hv. unfold IGAProbeCreate. apply ok_bind.
  pose proof (J_range h u H i Li) as Ri.
  change (alloc KProbe 2) with (alloc KProbe (arity KProbe)).
  apply (ok_alloc h u KProbe _ H). intros h1 J1 N1 O1 X1. set (p := h_next h) in *.
  assert (Ei1 : h_obj h1 i = h_obj h i) by (apply O1; lia).
  apply ok_bind. eapply ok_mono; [apply (hold_ok h1 _ p 1 i J1)|].
  { unfold live. now rewrite X1. } { unfold live. now rewrite Ei1. } { rewrite X1. cbn. lia. }
  { unfold rk. rewrite X1, Ei1, Ki. cbn. lia. } { unfold slots. rewrite X1. reflexivity. }
  intros [] h2 [J2 [C2 [N2 [A2 X2]]]]. cbv beta. rewrite X1 in X2. unfold slots in X2. rewrite X1 in X2. cbn in X2.
  assert (Si : Sm (h_obj h i) (h_obj h2 i)) by (rewrite <- Ei1; apply A2; lia).
  assert (Li2 : live h2 i) by (eapply live_Sm; eauto).
  apply ok_bind. apply ok_get; auto. apply ok_bind. apply ok_get; auto. apply ok_bind.
  rewrite (slots_Sm _ _ _ Si).
  set (ws := opt_list _ ++ opt_list _).
  assert (Lp2 : live h2 p) by exact (IsO_live _ _ _ _ _ X2).
  eapply ok_set_weak; [exact J2|exact Lp2|]. intros h3 J3 N3 O3 X3.
  destruct X2 as [K2 [F2 [S2 W2]]]. unfold slots in X3. rewrite K2, S2 in X3.
  assert (Old : forall z, z < h_next h -> Sm (h_obj h z) (h_obj h3 z)).
  { intros z Hz. rewrite O3 by lia. rewrite <- (O1 z) by lia. apply A2. lia. }
  assert (W3 : WInv h -> WInv h3).
  { intros W x Lx Kx. pose proof (J_range _ _ J3 x Lx) as Rx. destruct (Z.eq_dec x p) as [->|Nx].
    - exists i. unfold slots. rewrite X3. cbn [o_slots o_weak nth]. split; [reflexivity|].
      destruct (Old i ltac:(lia)) as [-> [_ [-> _]]]. split; [exact Ki|].
      intros w Iw. unfold ws, slots in Iw. apply in_app_or in Iw. destruct Iw as [Iw|Iw].
      + exists s_ratW. split; auto. destruct (nth s_ratW (o_slots (h_obj h i)) None) as [a|]; [|destruct Iw].
        destruct Iw as [->|[]]. reflexivity.
      + exists s_geoX. split; auto. destruct (nth s_geoX (o_slots (h_obj h i)) None) as [a|]; [|destruct Iw].
        destruct Iw as [->|[]]. reflexivity.
    - assert (Hx : x < h_next h) by (unfold p in *; lia).
      destruct (Old x Hx) as [Sk [Sf [Ss Sw]]]. unfold live in Lx. rewrite Sf in Lx. rewrite Sk in Kx.
      destruct (W x Lx Kx) as [j [E [Kj Wj]]].
      pose proof (live_slot h u x j H Lx (nth_In_some _ _ _ E)) as Lj. pose proof (J_range h u H j Lj) as Rj.
      destruct (Old j ltac:(lia)) as [Tk [_ [Ts _]]]. exists j. unfold slots. rewrite Ss, Tk, Ts, Sw. auto. }
  assert (P3 : nth 1 (slots h3 p) None = Some i) by (unfold slots; now rewrite X3).
  destruct v as [v|]; [|apply ok_ret; split; auto].
  destruct Hv as [Lv Kv]. pose proof (J_range h u H v Lv) as Rv.
  apply ok_bind. eapply ok_mono; [apply (IGAProbeSetVec_ok h3 _ p v J3)|].
  - unfold live. now rewrite X3.
  - now rewrite X3.
  - eapply live_Sm; [exact Lv|apply Old; lia].
  - destruct (Old v ltac:(lia)) as [-> _]. exact Kv.
  - intros [] h4 [J4 G4]. apply ok_ret. split; auto. split; [intros W; exact (WInv_G h3 _ h4 _ J3 J4 G4 (W3 W))|].
    rewrite (g_probe _ _ G4 p); [exact P3|rewrite N3; destruct (J_range _ _ J2 p Lp2); lia|now rewrite X3].
Qed.

Lemma touch_all_ok h l : (forall w, In w l -> live h w) -> touch_all l h = Done tt h.
Proof.
  induction l as [|a t IH]; intros Hl; [reflexivity|]. cbn [touch_all]. unfold bind, touch.
  assert (La : live h a) by (apply Hl; now left). unfold live in La. rewrite La. apply IH. intros; apply Hl; now right.
Qed.
Lemma touch_all_same h l h' : touch_all l h = Done tt h' -> h' = h.
Proof.
  revert h. induction l as [|a t IH]; intros h; cbn [touch_all]; [now intros [=]|]. unfold bind, touch.
  destruct (o_freed (h_obj h a)); [discriminate|]. apply IH.
Qed.
Lemma SetPoint_same h p r h' : api (CProbeSetPoint p) h = Done r h' -> h' = h /\ r = None.
Proof.
  cbn [api]. unfold quiet, bind at 1, IGAProbeSetPoint.
  destruct (o_freed (h_obj h p)); [discriminate|]. destruct (nth 1 (o_slots (h_obj h p)) None) as [i|]; [|discriminate].
  unfold bind at 1, touch. destruct (o_freed (h_obj h i)); [discriminate|].
  destruct (touch_all (o_weak (h_obj h p)) h) as [[] h1|h1|] eqn:E; try discriminate.
  unfold ret. intros [= <- <-]. split; auto. exact (touch_all_same _ _ _ E).
Qed.

(** * All calls *)
Definition arg_live (h : heap) (k : kind) (x : Z) : Prop := live h x /\ o_kind (h_obj h x) = k.

Lemma reach_live own h x : J h own -> reach own h x -> live h x.
Proof.
  intros H Rx. induction Rx as [x Ox|x y Rx IH I].
  - apply (live_u h own); auto. lia.
  - exact (live_slot h own x y H IH I).
Qed.
Lemma arg_alive own h k x : J h own -> arg own h k x -> live h x /\ o_kind (h_obj h x) = k.
Proof. intros H [Rx K]. split; auto. exact (reach_live own h x H Rx). Qed.

Lemma live_reach own h : J h own -> forall x, live h x -> reach own h x.
Proof.
  intros H. assert (P : forall n x, live h x -> 5 - rk h x < Z.of_nat n -> reach own h x).
  { induction n as [|n IH]; intros x L Hn.
    - unfold rk in Hn. pose proof (rank_le (o_kind (h_obj h x))). lia.
    - destruct (J_live h own H x L) as [Rx Rp]. pose proof (J_u h own H x).
      destruct (Z.eq_dec (own x) 0) as [E|E]; [|apply reach_own; lia].
      destruct (tot_pos (fun z => weight (h_obj h z) x) (Z.to_nat (h_next h))) as [y [Ry Wy]].
      + intros; apply weight_nonneg.
      + fold (cnt h x). lia.
      + unfold weight in Wy. destruct (o_freed (h_obj h y)) eqn:Fy; [lia|]. apply occ_pos in Wy.
        pose proof (J_rank h own H y x Fy Wy). apply (reach_slot own h y x); auto. apply IH; auto. lia. }
  intros x L. apply (P 6%nat x L). unfold rk. pose proof (rank_le (o_kind (h_obj h x))). lia.
Qed.

Definition Good (h : heap) (own : owner) (c : cmd) (r : option Z) (h' : heap) : Prop :=
  J h' (own_after own c r) /\ (~ frees_arrays c -> WInv h -> WInv h').

Lemma fresh_ok h own c m (Q : Z -> heap -> Prop) : J h own ->
  (forall x, own_after own c (Some x) = plus own x 1) ->
  ok m h Q -> (forall x h', Q x h' -> New h own x h') -> ok (fresh m) h (Good h own c).
Proof.
  intros H E K N. unfold fresh. apply ok_bind. eapply ok_mono; [exact K|]. intros x h' Qx. apply ok_ret.
  destruct (N x h' Qx) as [J' C']. split; [rewrite E; exact J'|]. intros _. exact (WInv_G h _ h' _ H J' (Ch_G _ _ C')).
Qed.
Lemma quiet_ok h own c m : J h own -> own_after own c None = own ->
  ok m h (fun _ h' => Kept own h h') -> ok (quiet m) h (Good h own c).
Proof.
  intros H E K. unfold quiet. apply ok_bind. eapply ok_mono; [exact K|]. intros [] h' [J' G']. apply ok_ret.
  split; [rewrite E; exact J'|]. intros _. exact (WInv_G h _ h' _ H J' G').
Qed.

Lemma api_ok h own c : J h own -> legal own h c -> ~ sets_point c -> ok (api c) h (Good h own c).
Proof.
  intros H L NP.
  assert (A : forall k x, arg own h k x -> live h x /\ o_kind (h_obj h x) = k) by (intros k x; now apply arg_alive).
  assert (R3 : forall x, o_kind (h_obj h x) = KIga -> rk h x < 3) by (intros x K; unfold rk; rewrite K; cbn; lia).
  assert (R4 : forall x, o_kind (h_obj h x) = KIga -> rk h x < 4) by (intros x K; unfold rk; rewrite K; cbn; lia).
  assert (MN : forall x h' k sl w, Made own h x h' k sl w -> New h own x h') by (intros; eapply made_New; eauto).
  destruct c; cbn [api legal] in *.
  - eapply fresh_ok; auto; [apply (IGACreate_ok h own H)|]. intros x h' [sl [M _]]. exact (MN _ _ _ _ _ M).
  - apply A in L. destruct L as [Li Ki]. eapply fresh_ok; auto; [apply (IGAClone_ok h own H i Li)|]. intros x h' [sl [M _]]. exact (MN _ _ _ _ _ M).
  - apply A in L. destruct L as [Li Ki]. unfold quiet. apply ok_bind.
    eapply ok_mono; [apply (free_both_ok h own i s_ratW s_geoX H Li Ki); unfold s_ratW, s_geoX; lia|].
    intros [] h' J'. apply ok_ret. split; [exact J'|]. intros N. exfalso. apply N. exact I.
  - apply A in L. destruct L as [Li Ki]. unfold quiet. apply ok_bind.
    eapply ok_mono; [apply (free_both_ok h own i s_geoX s_ratW H Li Ki); unfold s_ratW, s_geoX; lia|].
    intros [] h' J'. apply ok_ret. split; [exact J'|]. intros N. exfalso. apply N. exact I.
  - apply A in L. destruct L as [Li Ki]. apply quiet_ok; auto. now apply IGALoadGeometry_ok.
  - eapply fresh_ok; auto; [apply (alloc_made h own KForm H); discriminate|]. intros x h' M; exact (MN _ _ _ _ _ M).
  - destruct L as [L1 L2]. apply A in L1. apply A in L2. destruct L1, L2. apply quiet_ok; auto. now apply IGASetForm_ok.
  - apply A in L. destruct L as [Li Ki]. eapply fresh_ok; auto; [apply (IGACreateVec_ok h own H i Li); auto|]. intros x h' M; exact (MN _ _ _ _ _ M).
  - apply A in L. destruct L as [Li Ki]. eapply fresh_ok; auto; [apply (VecDuplicate_ok h own H v Li Ki)|]. intros x h' [sl M]. exact (MN _ _ _ _ _ M).
  - apply A in L. destruct L as [Li Ki]. eapply fresh_ok; auto; [apply (IGACreateKSP_ok h own H i Li); auto|]. intros x h' [sl M]. exact (MN _ _ _ _ _ M).
  - apply A in L. destruct L as [Li Ki]. eapply fresh_ok; auto; [apply (IGACreateSNES_ok h own H i Li); auto|]. intros x h' [sl M]. exact (MN _ _ _ _ _ M).
  - apply A in L. destruct L as [Li Ki]. eapply fresh_ok; auto; [apply (IGACreateTS_ok h own H i Li); auto|]. intros x h' [sl M]. exact (MN _ _ _ _ _ M).
  - apply A in L. destruct L as [Li Ki]. eapply fresh_ok; auto; [apply (IGACreateTS2_ok h own H i Li); auto|]. intros x h' [sl M]. exact (MN _ _ _ _ _ M).
  - apply A in L. destruct L as [Li Ki]. eapply fresh_ok; auto; [apply (KSPSetIGA_ok h own H i Li); auto|]. intros x h' [sl M]. exact (MN _ _ _ _ _ M).
  - apply A in L. destruct L as [Li Ki]. eapply fresh_ok; auto; [apply (TSSetIGA_ok h own i H Li); auto|]. intros x h' [M _]; exact M.
  - eapply fresh_ok; auto; [apply (alloc_made h own KDm H); discriminate|]. intros x h' M; exact (MN _ _ _ _ _ M).
  - apply A in L. destruct L as [Li Ki]. eapply fresh_ok; auto; [apply (DMIGACreate_ok h own H i Li); auto|]. intros x h' M; exact (MN _ _ _ _ _ M).
  - destruct L as [L1 L2]. apply A in L1. apply A in L2. destruct L1, L2. apply quiet_ok; auto. now apply DMIGASetIGA_ok.
  - apply A in L. destruct L as [Li Ki]. apply quiet_ok; auto. now apply DMSetUp_ok.
  - apply A in L. destruct L as [Li Ki]. eapply fresh_ok; auto; [apply (DMCreateGlobalVector_ok h own H d Li Ki)|]. intros x h' [sl M]. exact (MN _ _ _ _ _ M).
  - apply A in L. destruct L as [Li Ki]. eapply fresh_ok; auto; [apply (DMClone_ok h own d H Li)|]. intros x h' M; exact M.
  - apply A in L. destruct L as [Li Ki]. eapply fresh_ok; auto; [apply (DMCreateSubDM_ok h own H d Li Ki)|]. intros x h' M; exact M.
  - destruct L as [L1 L2]. apply A in L1. destruct L1 as [Li Ki]. unfold fresh. apply ok_bind.
    eapply ok_mono; [apply (IGAProbeCreate_ok h own i v H Li Ki)|].
    + destruct v as [v|]; auto.
    + intros p h' [J' [W' _]]. apply ok_ret. split; [exact J'|]. intros _. exact W'.
  - destruct L as [L1 L2]. apply A in L1. apply A in L2. destruct L1, L2. apply quiet_ok; auto. now apply IGAProbeSetVec_ok.
  - exfalso. apply NP. exact I.
  - destruct L as [L1 L2]. pose proof (reach_live own h x H L1) as Lx. unfold quiet. apply ok_bind.
    eapply ok_mono; [apply (S_reference h own x H Lx)|]. intros [] h' [J' A']. apply ok_ret. split; [exact J'|].
    intros _. exact (WInv_G h _ h' _ H J' (Ch_G _ _ (AllSm_Ch _ _ A'))).
  - unfold quiet. apply ok_bind. eapply ok_mono; [apply (destroy_ok depth x h own H)|].
    + lia.
    + unfold rk. pose proof (rank_le (o_kind (h_obj h x))). cbn. lia.
    + intros [] h' [J' K']. apply ok_ret. split; [exact J'|]. intros _. exact (WInv_G h _ h' _ H J' (kept_G _ _ _ _ K')).
Qed.

Lemma J0 : J heap0 (fun _ => 0).
Proof.
  constructor; intros; try (match goal with L : live heap0 _ |- _ => discriminate L end); cbn; try lia.
Qed.

Lemma run_J P h own : run P h own -> J h own.
Proof.
  induction 1 as [|h own c r h' Hr IH Pc L E]; [exact J0|].
  assert (D : sets_point c \/ ~ sets_point c) by (destruct c; cbn; auto).
  destruct D as [S|S].
  - destruct c; try destruct S. destruct (SetPoint_same _ _ _ _ E) as [-> ->]. exact IH.
  - pose proof (api_ok h own c IH L S) as K. unfold ok in K. rewrite E in K. apply K.
Qed.

Lemma run_W (P : cmd -> Prop) h own : (forall c, P c -> ~ frees_arrays c) -> run P h own -> WInv h.
Proof.
  intros HP. induction 1 as [|h own c r h' Hr IH Pc L E].
  { intros x Lx. discriminate. }
  assert (D : sets_point c \/ ~ sets_point c) by (destruct c; cbn; auto).
  destruct D as [S|S].
  - destruct c; try destruct S. destruct (SetPoint_same _ _ _ _ E) as [-> ->]. exact IH.
  - pose proof (api_ok h own c (run_J P h own Hr) L S) as K. unfold ok in K. rewrite E in K. apply K; auto.
Qed.

Lemma no_fault P h own c : run P h own -> legal own h c -> ~ sets_point c -> api c h <> Fault.
Proof.
  intros Hr L S E. pose proof (api_ok h own c (run_J P h own Hr) L S) as K. unfold ok in K. now rewrite E in K.
Qed.

Lemma point_no_fault (P : cmd -> Prop) h own p : (forall c, P c -> ~ frees_arrays c) -> run P h own ->
  legal own h (CProbeSetPoint p) -> api (CProbeSetPoint p) h = Done None h.
Proof.
  intros HP Hr L. pose proof (run_J P h own Hr) as H. cbn [legal] in L. destruct (arg_alive own h KProbe p H L) as [Lp Kp].
  destruct (run_W P h own HP Hr p Lp Kp) as [i [E [Ki Wi]]].
  pose proof (live_slot h own p i H Lp (nth_In_some _ _ _ E)) as Li.
  cbn [api]. unfold quiet, bind at 1, IGAProbeSetPoint. unfold live in Lp. rewrite Lp. unfold slots in E. rewrite E.
  unfold bind, touch. unfold live in Li. rewrite Li. rewrite touch_all_ok; [reflexivity|].
  intros w Iw. destruct (Wi w Iw) as [n [_ En]]. exact (live_slot h own i w H Li (nth_In_some _ _ _ En)).
Qed.
