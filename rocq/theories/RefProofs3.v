(** The calls, one by one, and the theorems on states a program can be in. *)
From Coq Require Import ZArith List Bool Lia FunctionalExtensionality.
Import ListNotations.
From Verif Require Import RefModel RefSpec RefProofs RefProofs2.
Local Open Scope Z_scope.

Lemma rk_old h h' z : Sm (h_obj h z) (h_obj h' z) -> rk h' z = rk h z.
Proof. apply rk_Sm. Qed.

Lemma AllNew_set h l n v : AllNew h l -> match v with Some a => h_next h <= a | None => True end ->
  AllNew h (list_set l n v).
Proof.
  unfold AllNew. intros A. revert n. induction A as [|a t Ha At IH]; intros [|n] Hv; cbn; constructor; auto.
Qed.

Section Calls.
Variables (h : heap) (u : owner).
Hypothesis H : J h u.

Lemma lt_next x : live h x -> x < h_next h.
Proof using H. intros L. apply (J_range h u H x L). Qed.
Lemma u_nonneg z : 0 <= u z.
Proof using H. exact (J_u h u H z). Qed.

Lemma copy_array_ok i j h1 sl n : Made u h j h1 KIga sl [] -> live h i -> (n < 13)%nat -> nth n sl None = None ->
  ok (copy_array i j n) h1 (fun _ h2 => exists v, Made u h j h2 KIga (list_set sl n v) [] /\
    match v with Some a => h_next h <= a | None => True end).
Proof using H.
  intros M1 Li Hn En. pose proof M1 as [J1 [C1 [E1 [N1 O1]]]].
  pose proof (made_old _ _ _ _ _ _ _ i M1 (lt_next i Li)) as Si.
  assert (Li1 : live h1 i) by (eapply live_Sm; eauto).
  unfold copy_array. apply ok_bind. apply ok_get; auto.
  destruct (nth n (slots h1 i) None) as [a|] eqn:Ea.
  - apply ok_bind. apply ok_touch.
    + eapply live_slot; [exact J1|exact Li1|]. rewrite <- Ea. apply nth_In.
      destruct (Nat.lt_ge_cases n (length (slots h1 i))) as [|Ge]; auto.
      rewrite nth_overflow in Ea by exact Ge. discriminate.
    + eapply ok_mono; [apply (made_attach _ _ _ _ _ _ _ _ M1); cbn; auto; try lia; discriminate|].
      intros [] h2 [b [M2 Hb]]. now exists (Some b).
  - apply ok_ret. exists None. split; [|exact I]. rewrite <- En at 1. rewrite list_set_same. exact M1.
Qed.

Lemma IGAClone_ok i : live h i -> ok (IGAClone i) h (fun j h' => exists sl, Made u h j h' KIga sl [] /\ AllNew h sl).
Proof using H.
  intros Li. unfold IGAClone. apply ok_bind.
  eapply ok_mono; [apply (IGACreate_ok h u H)|]. intros j h1 [sl [M1 [E1 [E2 [Len AN]]]]]. cbv beta. apply ok_bind.
  eapply ok_mono; [apply (copy_array_ok i j h1 sl s_ratW M1 Li); [unfold s_ratW; lia|exact E1]|].
  intros [] h2 [v [M2 Hv]]. cbv beta. apply ok_bind.
  eapply ok_mono; [apply (copy_array_ok i j h2 _ s_geoX M2 Li); [unfold s_geoX; lia|]|].
  - rewrite nth_list_set by (rewrite Len; unfold s_ratW; lia). exact E2.
  - intros [] h3 [v' [M3 Hv']]. apply ok_ret. eexists. split; [exact M3|]. apply AllNew_set; auto. apply AllNew_set; auto.
Qed.

Lemma IGACreateVec_ok i : live h i -> rk h i < 4 ->
  ok (IGACreateVec i) h (fun v h' => Made u h v h' KVec [Some i; None] []).
Proof using H.
  intros Li Ri. unfold IGACreateVec. apply ok_bind.
  eapply ok_mono; [apply (alloc_made h u KVec H); discriminate|]. intros v h1 M1. cbv beta. apply ok_bind.
  pose proof (made_old _ _ _ _ _ _ _ i M1 (lt_next i Li)) as Si.
  eapply ok_mono; [apply (made_hold _ _ _ _ _ _ _ 0 i M1); cbn; auto; try lia|].
  - eapply live_Sm; eauto.
  - rewrite (rk_Sm _ _ _ Si). lia.
  - intros [] h2 [M2 _]. apply ok_ret. exact M2.
Qed.

Lemma DMIGACreate_ok i : live h i -> rk h i < 3 ->
  ok (DMIGACreate i) h (fun d h' => Made u h d h' KDm [Some i] []).
Proof using H.
  intros Li Ri. unfold DMIGACreate. apply ok_bind.
  eapply ok_mono; [apply (alloc_made h u KDm H); discriminate|]. intros v h1 M1. cbv beta. apply ok_bind.
  pose proof (made_old _ _ _ _ _ _ _ i M1 (lt_next i Li)) as Si.
  eapply ok_mono; [apply (made_hold _ _ _ _ _ _ _ 0 i M1); cbn; auto; try lia|].
  - eapply live_Sm; eauto.
  - rewrite (rk_Sm _ _ _ Si). lia.
  - intros [] h2 [M2 _]. apply ok_ret. exact M2.
Qed.

(** The place of a solver that is filled first. *)
Lemma solver_ok i : live h i -> rk h i < 4 ->
  ok (k <- alloc KSolver 5;; hold k 0 i;; ret k) h
     (fun k h' => Made u h k h' KSolver [Some i; None; None; None; None] []).
Proof using H.
  intros Li Ri. apply ok_bind.
  eapply ok_mono; [apply (alloc_made h u KSolver H); discriminate|]. intros v h1 M1. cbv beta. apply ok_bind.
  pose proof (made_old _ _ _ _ _ _ _ i M1 (lt_next i Li)) as Si.
  eapply ok_mono; [apply (made_hold _ _ _ _ _ _ _ 0 i M1); cbn; auto; try lia|].
  - eapply live_Sm; eauto.
  - rewrite (rk_Sm _ _ _ Si). lia.
  - intros [] h2 [M2 _]. apply ok_ret. exact M2.
Qed.
End Calls.

Lemma nth_In_some (l : list (option Z)) n y : nth n l None = Some y -> In (Some y) l.
Proof.
  intros E. rewrite <- E. apply nth_In. destruct (Nat.lt_ge_cases n (length l)) as [|Ge]; auto.
  rewrite nth_overflow in E by exact Ge. discriminate.
Qed.
Lemma In_list_set_here l n y : (n < length l)%nat -> In (Some y) (list_set l n (Some y)).
Proof. revert n; induction l as [|a t IH]; intros [|n] Hn; cbn in *; try lia; auto. right. apply IH. lia. Qed.

Lemma bind_ret {A} (m : M A) : bind m (fun x => ret x) = m.
Proof. apply functional_extensionality. intros h. unfold bind, ret. now destruct (m h). Qed.
Lemma bind_assoc {A B C} (m : M A) (f : A -> M B) (g : B -> M C) : bind (bind m f) g = bind m (fun a => bind (f a) g).
Proof. apply functional_extensionality. intros h. unfold bind. now destruct (m h). Qed.
Lemma ret_bind {A B} (a : A) (f : A -> M B) : bind (ret a) f = f a.
Proof. reflexivity. Qed.

(** In a solver [k] just made with [i] in place 0: store a new vector. *)
Section Give.
Variables (h : heap) (u : owner) (k i : Z).
Hypothesis H : J h u.

Definition Sol (h1 : heap) (sl : list (option Z)) : Prop :=
  Made u h k h1 KSolver sl [] /\ length sl = 5%nat /\ live h1 i /\ rk h1 i < 4 /\ i <> k /\ i < h_next h1.

Lemma give_new_ok h1 sl n : Sol h1 sl -> (n < 5)%nat -> nth n sl None = None ->
  ok (give_new k n i) h1 (fun _ h2 => exists v, Sol h2 (list_set sl n (Some v))).
Proof using H.
  intros [M1 [Len [Li [Ri [Nik Hi]]]]] Hn En. pose proof M1 as [J1 [C1 [E1 [N1 O1]]]].
  unfold give_new. apply ok_bind.
  eapply ok_mono; [apply (IGACreateVec_ok h1 (plus u k 1) J1 i Li Ri)|]. intros v h2 M2. cbv beta. apply ok_bind.
  destruct (made_then _ _ _ _ _ _ _ _ _ _ _ _ M1 M2) as [O2 [Nv [C2 J2]]]. pose proof O2 as [K2 [F2 [S2 W2]]].
  pose proof M2 as [_ [_ [Ev [Lv Ov]]]].
  eapply ok_mono; [apply (hold_ok h2 (plus (plus u k 1) v 1)); auto|].
  - exact (IsO_live _ _ _ _ _ Ov).
  - rewrite K2. exact Hn.
  - unfold rk. rewrite K2. destruct Ov as [-> _]. cbn. lia.
  - unfold slots. rewrite S2. exact En.
  - intros [] h3 [J3 [C3 [N3 [A3 O3]]]]. cbv beta. rewrite K2, W2 in O3. unfold slots in O3. rewrite S2 in O3.
    eapply ok_mono; [eapply (made_drop u h k KSolver _ _ v h3 J3)|]; auto.
    + eapply Ch_trans; [exact C2|exact C3|]. intros z <-. right; lia.
    + lia.
    + exact O3.
    + apply In_list_set_here. lia.
    + exact (J_u h u H).
    + intros [] h4 [M4 [N4 A4]]. exists v.
      assert (Si : Sm (h_obj h1 i) (h_obj h4 i)).
      { eapply Sm_trans; [exact (made_old _ _ _ _ _ _ _ i M2 Hi)|]. eapply Sm_trans; [apply A3; auto|apply A4]. }
      split; [exact M4|]. split; [rewrite list_set_length; exact Len|]. split; [eapply live_Sm; eauto|].
      split; [rewrite (rk_Sm _ _ _ Si); exact Ri|]. split; [exact Nik|].
      lia.
Qed.
End Give.

Section Calls2.
Variables (h : heap) (u : owner).
Hypothesis H : J h u.

Lemma sol_start i : live h i -> rk h i < 4 ->
  ok (k <- alloc KSolver 5;; hold k 0 i;; ret k) h
     (fun k h' => Sol h u k i h' [Some i; None; None; None; None]).
Proof using H.
  intros Li Ri. eapply ok_mono; [apply (solver_ok h u H i Li Ri)|]. intros k h1 M1.
  pose proof (lt_next h u H i Li) as Hi. pose proof (made_old _ _ _ _ _ _ _ i M1 Hi) as Si. pose proof M1 as [_ [C1 [E1 _]]].
  split; [exact M1|]. split; [reflexivity|]. split; [eapply live_Sm; eauto|].
  split; [rewrite (rk_Sm _ _ _ Si); exact Ri|]. split; [lia|]. pose proof (c_next _ _ _ C1). lia.
Qed.

Ltac start :=
  match goal with |- ok (bind (alloc KSolver 5) (fun k => bind (hold k 0 ?i) (fun _ => @?f k))) _ _ =>
    replace (bind (alloc KSolver 5) (fun k => bind (hold k 0 i) (fun _ => f k)))
      with (bind (k <- alloc KSolver 5;; hold k 0 i;; ret k) f)
      by (rewrite bind_assoc; f_equal; apply functional_extensionality; intros ?; rewrite bind_assoc; reflexivity)
  end; apply ok_bind; eapply ok_mono; [apply sol_start; assumption|]; let k := fresh "k" in let h1 := fresh "h" in
  let S1 := fresh "S" in intros k h1 S1; cbv beta.
Ltac give S := apply ok_bind; eapply ok_mono;
  [apply (give_new_ok _ _ _ _ H _ _ _ S); [lia|reflexivity]|];
  let v := fresh "v" in let h' := fresh "h" in let S' := fresh "S" in intros [] h' [v S']; cbv beta; cbn [list_set] in S'.

Lemma IGACreateKSP_ok i : live h i -> rk h i < 4 -> ok (IGACreateKSP i) h (fun k h' => exists sl, Made u h k h' KSolver (Some i :: sl) []).
Proof using H.
  intros Li Ri. eapply ok_mono; [apply (solver_ok h u H i Li Ri)|]. intros k h1 M1. eexists; exact M1.
Qed.
Lemma IGACreateSNES_ok i : live h i -> rk h i < 4 -> ok (IGACreateSNES i) h (fun k h' => exists sl, Made u h k h' KSolver (Some i :: sl) []).
Proof using H.
  intros Li Ri. unfold IGACreateSNES. start. give S. give S0. apply ok_ret. eexists. apply S1.
Qed.
Lemma IGACreateTS_ok i : live h i -> rk h i < 4 -> ok (IGACreateTS i) h (fun k h' => exists sl, Made u h k h' KSolver (Some i :: sl) []).
Proof using H.
  intros Li Ri. unfold IGACreateTS. start. give S. give S0. give S1. apply ok_ret. eexists. apply S2.
Qed.

Lemma IGACreateTS2_ok i : live h i -> rk h i < 4 -> ok (IGACreateTS2 i) h (fun k h' => exists sl, Made u h k h' KSolver (Some i :: sl) []).
Proof using H.
  intros Li Ri. unfold IGACreateTS2. start. rename h0 into h1.
  pose proof S as [M1 [_ [Li1 [Ri1 [Nik Hi1]]]]]. pose proof M1 as [J1 [C1 [E1 [N1 O1]]]].
  apply ok_bind. eapply ok_mono; [apply (IGACreateVec_ok h1 _ J1 i Li1 Ri1)|]. intros x h2 Mx. cbv beta.
  destruct (made_then _ _ _ _ _ _ _ _ _ _ _ _ M1 Mx) as [O2 [Nx [C2 J2]]].
  pose proof (made_old _ _ _ _ _ _ _ i Mx Hi1) as Si2. pose proof Mx as [_ [Cx [Ex [Lx Ox]]]].
  apply ok_bind. eapply ok_mono; [apply (IGACreateVec_ok h2 _ J2 i)|].
  { eapply live_Sm; eauto. } { rewrite (rk_Sm _ _ _ Si2). exact Ri1. }
  intros y h3 My. cbv beta. pose proof My as [J3 [Cy [Ey [Ly Oy]]]].
  pose proof (made_old _ _ _ _ _ _ _ k My ltac:(lia)) as Sk3. pose proof (IsO_Sm _ _ _ _ _ O2 Sk3) as O3.
  pose proof (made_old _ _ _ _ _ _ _ x My ltac:(lia)) as Sx3. pose proof (IsO_Sm _ _ _ _ _ Ox Sx3) as Ox3.
  pose proof (made_old _ _ _ _ _ _ _ i My ltac:(lia)) as Si3.
  pose proof O3 as [K3 [F3 [S3 W3]]].
  apply ok_bind. eapply ok_mono; [apply (hold_ok h3 _ k 1 x J3)|]; auto.
  { exact (IsO_live _ _ _ _ _ Ox3). } { rewrite K3. cbn. lia. }
  { unfold rk. rewrite K3. destruct Ox3 as [-> _]. cbn. lia. } { unfold slots. rewrite S3. reflexivity. }
  intros [] h4 [J4 [C4 [N4 [A4 O4]]]]. cbv beta. rewrite K3, W3 in O4. unfold slots in O4. rewrite S3 in O4. cbn [list_set] in O4.
  pose proof O4 as [K4 [F4 [S4 W4]]]. pose proof (IsO_Sm _ _ _ _ _ Oy (A4 y ltac:(lia))) as Oy4.
  apply ok_bind. eapply ok_mono; [apply (hold_ok h4 _ k 2 y J4)|]; auto.
  { exact (IsO_live _ _ _ _ _ Oy4). } { rewrite K4. cbn. lia. }
  { unfold rk. rewrite K4. destruct Oy4 as [-> _]. cbn. lia. } { unfold slots. rewrite S4. reflexivity. }
  intros [] h5 [J5 [C5 [N5 [A5 O5]]]]. cbv beta. rewrite K4, W4 in O5. unfold slots in O5. rewrite S4 in O5. cbn [list_set] in O5.
  pose proof O5 as [K5 [F5 [S5 W5]]].
  pose proof (J_u _ _ H) as U0.
  apply ok_bind. eapply ok_mono; [apply (S_destroy_held h5 _ x J5)|].
  { unfold plus. specialize (U0 x). destruct (x =? y), (x =? k); destruct (Z.eqb_spec x x); try lia. }
  { apply (cnt_ge h5 _ k x J5); auto. unfold slots. rewrite S5. cbn. auto. }
  intros [] h6 [J6 [N6 A6]]. cbv beta. pose proof (IsO_Sm _ _ _ _ _ O5 (A6 k)) as O6. pose proof O6 as [K6 [F6 [S6 W6]]].
  apply ok_bind. eapply ok_mono; [apply (S_destroy_held h6 _ y J6)|].
  { unfold plus. specialize (U0 y). destruct (y =? x) eqn:Q, (y =? k); destruct (Z.eqb_spec y y); try lia. }
  { apply (cnt_ge h6 _ k y J6); auto. unfold slots. rewrite S6. cbn. auto. }
  intros [] h7 [J7 [N7 A7]]. cbv beta.
  assert (Sol7 : Sol h u k i h7 [Some i; Some x; Some y; None; None]).
  { assert (Si : Sm (h_obj h2 i) (h_obj h7 i)).
    { eapply Sm_trans; [exact Si3|]. eapply Sm_trans; [apply A4; auto|]. eapply Sm_trans; [apply A5; auto|].
      eapply Sm_trans; [apply A6|apply A7]. }
    assert (Li2 : live h2 i) by (eapply live_Sm; eauto).
    split; [|split; [reflexivity|split; [eapply live_Sm; eauto|split; [rewrite (rk_Sm _ _ _ Si), (rk_Sm _ _ _ Si2); exact Ri1|split; [auto|lia]]]]].
    split; [|split; [|split; [auto|split; [lia|exact (IsO_Sm _ _ _ _ _ O6 (A7 k))]]]].
    - eapply J_ext; [|exact J7]. intros z. rewrite !plus_occ1. lia.
    - eapply Ch_trans with (T := eq k); [|eapply Ch_trans with (T := nil) (h' := h5); [|apply AllSm_Ch; split; [congruence|intros z; eapply Sm_trans; [apply A6|apply A7]]|]|].
      + eapply Ch_trans; [exact C2|exact Cy|]. intros z [].
      + eapply Ch_trans; [exact C4|exact C5|]. intros z <-. now left.
      + intros z [].
      + intros z <-. right. lia. }
  give Sol7. give S0. apply ok_ret. eexists. apply S1.
Qed.

Lemma KSPSetIGA_ok i : live h i -> rk h i < 3 -> ok (KSPSetIGA i) h (fun k h' => exists sl, Made u h k h' KSolver (Some i :: sl) []).
Proof using H.
  intros Li Ri. assert (Ri' : rk h i < 4) by lia. pose proof (lt_next h u H i Li) as Hi0. unfold KSPSetIGA. start. rename h0 into h1.
  pose proof S as [M1 [_ [Li1 [_ [Nik Hi1]]]]]. pose proof M1 as [J1 [C1 [E1 [N1 O1]]]].
  pose proof (made_old _ _ _ _ _ _ _ i M1 Hi0) as Si1.
  apply ok_bind. eapply ok_mono; [apply (DMIGACreate_ok h1 _ J1 i Li1)|]. { rewrite (rk_Sm _ _ _ Si1). exact Ri. }
  intros d h2 Md. cbv beta. destruct (made_then _ _ _ _ _ _ _ _ _ _ _ _ M1 Md) as [O2 [Nd [C2 J2]]].
  pose proof O2 as [K2 [F2 [S2 W2]]]. pose proof Md as [_ [_ [Ed [Ld Od]]]].
  apply ok_bind. eapply ok_mono; [apply (hold_ok h2 _ k 1 d J2)|]; auto.
  { exact (IsO_live _ _ _ _ _ Od). } { rewrite K2. cbn. lia. }
  { unfold rk. rewrite K2. destruct Od as [-> _]. cbn. lia. } { unfold slots. rewrite S2. reflexivity. }
  intros [] h3 [J3 [C3 [N3 [A3 O3]]]]. cbv beta. rewrite K2, W2 in O3. unfold slots in O3. rewrite S2 in O3. cbn [list_set] in O3.
  apply ok_bind. eapply ok_mono; [eapply (made_drop u h k KSolver _ _ d h3 J3)|]; auto.
  - eapply Ch_trans; [exact C2|exact C3|]. intros z <-. right; lia.
  - lia.
  - exact O3.
  - cbn; auto.
  - exact (J_u h u H).
  - intros [] h4 [M4 _]. apply ok_ret. eexists; exact M4.
Qed.

Lemma DMCreateGlobalVector_ok d : live h d -> o_kind (h_obj h d) = KDm ->
  ok (DMCreateGlobalVector d) h (fun v h' => exists i, Made u h v h' KVec [Some i; Some d] []).
Proof using H.
  intros Ld Kd. unfold DMCreateGlobalVector. apply ok_bind. apply ok_get; auto.
  destruct (nth 0 (slots h d) None) as [i|] eqn:Ei; [|apply ok_err].
  pose proof (nth_In_some _ _ _ Ei) as Ii. pose proof (live_slot h u d i H Ld Ii) as Li.
  pose proof (J_rank h u H d i Ld Ii) as Ri. unfold rk at 2 in Ri. rewrite Kd in Ri. cbn in Ri.
  apply ok_bind. eapply ok_mono; [apply (IGACreateVec_ok h u H i Li)|]. { lia. }
  intros v h1 M1. cbv beta. pose proof (made_old _ _ _ _ _ _ _ d M1 (lt_next h u H d Ld)) as Sd.
  apply ok_bind. eapply ok_mono; [apply (made_hold _ _ _ _ _ _ _ 1 d M1); cbn; auto|].
  - eapply live_Sm; eauto.
  - rewrite (rk_Sm _ _ _ Sd). unfold rk. rewrite Kd. cbn. lia.
  - intros [] h2 [M2 _]. apply ok_ret. exists i. exact M2.
Qed.

Lemma VecDuplicate_ok v : live h v -> o_kind (h_obj h v) = KVec ->
  ok (VecDuplicate v) h (fun w h' => exists sl, Made u h w h' KVec sl []).
Proof using H.
  intros Lv Kv. unfold VecDuplicate. apply ok_bind. apply ok_get; auto.
  destruct (nth 0 (slots h v) None) as [i|] eqn:Ei; [|apply ok_err].
  pose proof (nth_In_some _ _ _ Ei) as Ii. pose proof (live_slot h u v i H Lv Ii) as Li.
  pose proof (J_rank h u H v i Lv Ii) as Ri. unfold rk at 2 in Ri. rewrite Kv in Ri. cbn in Ri.
  eapply ok_mono; [apply (IGACreateVec_ok h u H i Li Ri)|]. intros w h1 M1. eexists; exact M1.
Qed.

(** The caller holds one new object; nothing else has changed. *)
Definition New (x : Z) (h' : heap) : Prop := J h' (plus u x 1) /\ Ch nil h h'.

Lemma made_New x h' k sl w : Made u h x h' k sl w -> New x h'.
Proof using. unfold Made, New; tauto. Qed.

Lemma DMCreateSubDM_ok d : live h d -> o_kind (h_obj h d) = KDm -> ok (DMCreateSubDM d) h New.
Proof using H.
  intros Ld Kd. unfold DMCreateSubDM. apply ok_bind. apply ok_get; auto.
  destruct (nth 0 (slots h d) None) as [i|] eqn:Ei; [|apply ok_err].
  pose proof (live_slot h u d i H Ld (nth_In_some _ _ _ Ei)) as Li.
  apply ok_bind. eapply ok_mono; [apply (IGAClone_ok h u H i Li)|]. intros n h1 [sl [M1 _]]. cbv beta.
  pose proof M1 as [J1 [C1 [E1 [N1 O1]]]].
  apply ok_bind. eapply ok_mono; [apply (DMIGACreate_ok h1 _ J1 n)|].
  { exact (IsO_live _ _ _ _ _ O1). } { unfold rk. destruct O1 as [-> _]. cbn. lia. }
  intros e h2 M2. cbv beta. pose proof M2 as [J2 [C2 [E2 [N2 O2]]]].
  apply ok_bind. eapply ok_mono; [apply (S_destroy_held h2 _ n J2)|].
  { unfold plus. pose proof (J_u h u H n). destruct (n =? e); destruct (Z.eqb_spec n n); lia. }
  { apply (cnt_ge h2 _ e n J2); [exact (IsO_live _ _ _ _ _ O2)|]. unfold slots. destruct O2 as [_ [_ [-> _]]]. cbn; auto. }
  intros [] h3 [J3 A3]. apply ok_ret. split.
  - eapply J_ext; [|exact J3]. intros z. rewrite !plus_occ1. lia.
  - eapply Ch_trans; [eapply Ch_trans; [exact C1|exact C2|intros z []]|apply AllSm_Ch; exact A3|]. intros z [].
Qed.

End Calls2.

Lemma TSSetIGA_ok h u i : J h u -> live h i -> rk h i < 3 -> ok (TSSetIGA i) h (fun k h' => New h u k h' /\ nth 0 (slots h' k) None = Some i).
Proof.
  intros H Li Ri. assert (Ri' : rk h i < 4) by lia. pose proof (lt_next h u H i Li) as Hi0. unfold TSSetIGA.
  replace (bind (alloc KSolver 5) _)
      with (bind (k <- alloc KSolver 5;; hold k 0 i;; ret k)
              (fun k => d <- DMIGACreate i;; hold k 1 d;; v <- DMCreateGlobalVector d;; hold k 2 v;; destroy depth v;;
                        destroy depth d;; ret k))
      by (rewrite bind_assoc; f_equal; apply functional_extensionality; intros ?; rewrite bind_assoc; reflexivity).
  apply ok_bind. eapply ok_mono; [apply (sol_start h u H i Li Ri')|]. intros k h1 S. cbv beta.
  pose proof S as [M1 [_ [Li1 [_ [Nik Hi1]]]]]. pose proof M1 as [J1 [C1 [E1 [N1 O1]]]].
  pose proof (made_old _ _ _ _ _ _ _ i M1 Hi0) as Si1.
  apply ok_bind. eapply ok_mono; [apply (DMIGACreate_ok h1 _ J1 i Li1)|]. { rewrite (rk_Sm _ _ _ Si1). exact Ri. }
  intros d h2 Md. cbv beta. destruct (made_then _ _ _ _ _ _ _ _ _ _ _ _ M1 Md) as [O2 [Nd [C2 J2]]].
  pose proof O2 as [K2 [F2 [S2 W2]]]. pose proof Md as [_ [_ [Ed [Ld Od]]]].
  apply ok_bind. eapply ok_mono; [apply (hold_ok h2 _ k 1 d J2)|]; auto.
  { exact (IsO_live _ _ _ _ _ Od). } { rewrite K2. cbn. lia. }
  { unfold rk. rewrite K2. destruct Od as [-> _]. cbn. lia. } { unfold slots. rewrite S2. reflexivity. }
  intros [] h3 [J3 [C3 [N3 [A3 O3]]]]. cbv beta. rewrite K2, W2 in O3. unfold slots in O3. rewrite S2 in O3. cbn [list_set] in O3.
  assert (Ndk : d <> k) by lia.
  pose proof (IsO_Sm _ _ _ _ _ Od (A3 d Ndk)) as Od3. pose proof (proj1 Od3) as Kd3.
  apply ok_bind. eapply ok_mono; [apply (DMCreateGlobalVector_ok h3 _ J3 d (IsO_live _ _ _ _ _ Od3) Kd3)|].
  intros v h4 [j Mv]. cbv beta. pose proof Mv as [J4 [C4 [Ev [Lv Ov]]]].
  assert (Hk3 : k < h_next h3) by lia.
  pose proof (IsO_Sm _ _ _ _ _ O3 (made_old _ _ _ _ _ _ _ k Mv Hk3)) as O4. pose proof O4 as [K4 [F4 [S4 W4]]].
  apply ok_bind. eapply ok_mono; [apply (hold_ok h4 _ k 2 v J4)|]; auto.
  { exact (IsO_live _ _ _ _ _ Ov). } { rewrite K4. cbn. lia. }
  { unfold rk. rewrite K4. destruct Ov as [-> _]. cbn. lia. } { unfold slots. rewrite S4. reflexivity. }
  intros [] h5 [J5 [C5 [N5 [A5 O5]]]]. cbv beta. rewrite K4, W4 in O5. unfold slots in O5. rewrite S4 in O5. cbn [list_set] in O5.
  pose proof O5 as [K5 [F5 [S5 W5]]]. pose proof (J_u _ _ H) as U0.
  apply ok_bind. eapply ok_mono; [apply (S_destroy_held h5 _ v J5)|].
  { unfold plus. specialize (U0 v). destruct (v =? d), (v =? k); destruct (Z.eqb_spec v v); lia. }
  { apply (cnt_ge h5 _ k v J5); auto. unfold slots. rewrite S5. cbn. auto. }
  intros [] h6 [J6 [N6 A6]]. cbv beta. pose proof (IsO_Sm _ _ _ _ _ O5 (A6 k)) as O6. pose proof O6 as [K6 [F6 [S6 W6]]].
  apply ok_bind. eapply ok_mono; [apply (S_destroy_held h6 _ d J6)|].
  { assert (d <> v) by lia. rewrite plus_other by auto. rewrite plus_other by auto. rewrite plus_same.
    unfold plus. specialize (U0 d). destruct (d =? k); lia. }
  { apply (cnt_ge h6 _ k d J6); auto. unfold slots. rewrite S6. cbn. auto. }
  intros [] h7 [J7 [N7 A7]]. apply ok_ret.
  split; [split|rewrite (slots_Sm _ _ _ (A7 k)); unfold slots; rewrite S6; reflexivity].
  - eapply J_ext; [|exact J7]. intros z. rewrite !plus_occ1. lia.
  - assert (C25 : Ch (eq k) h2 h5).
    { eapply Ch_trans; [eapply Ch_trans; [exact C3|apply (Ch_nil nil); exact C4|intros z []]|exact C5|]. intros z <-. now left. }
    eapply Ch_trans with (h' := h6); [eapply Ch_trans with (h' := h5)|apply AllSm_Ch; split; eauto|intros z []].
    + eapply Ch_trans; [exact C2|exact C25|]. intros z <-. right; lia.
    + apply AllSm_Ch; split; eauto.
    + intros z [].
Qed.

(** * Changing *)
(** What the calls may change of the objects that existed, as far as probes care. *)
Record G (h h' : heap) : Prop := mk_G {
  g_next : h_next h <= h_next h';
  g_kind : forall z, z < h_next h -> o_kind (h_obj h' z) = o_kind (h_obj h z);
  g_dead : forall z, z < h_next h -> o_freed (h_obj h z) = true -> o_freed (h_obj h' z) = true;
  g_weak : forall z, z < h_next h -> o_weak (h_obj h' z) = o_weak (h_obj h z);
  g_probe : forall z, z < h_next h -> o_kind (h_obj h z) = KProbe -> nth 1 (slots h' z) None = nth 1 (slots h z) None;
  g_iga : forall z n w, z < h_next h -> o_kind (h_obj h z) = KIga -> n = s_ratW \/ n = s_geoX ->
    nth n (slots h z) None = Some w -> nth n (slots h' z) None = Some w;
  g_new : forall z, h_next h <= z < h_next h' -> o_kind (h_obj h' z) <> KProbe }.

Lemma Ch_G h h' : Ch nil h h' -> G h h'.
Proof.
  intros C. constructor; try apply C.
  - intros z Hz. apply (c_same _ _ _ C); auto.
  - intros z Hz _. unfold slots. destruct (c_same _ _ _ C z Hz (fun f => f)) as [_ [_ [-> _]]]. reflexivity.
  - intros z n w Hz _ _ E. unfold slots. destruct (c_same _ _ _ C z Hz (fun f => f)) as [_ [_ [-> _]]]. exact E.
Qed.
Lemma G_trans a b c : G a b -> G b c -> G a c.
Proof.
  intros A B. pose proof (g_next _ _ A). pose proof (g_next _ _ B). constructor.
  - lia.
  - intros z Hz. rewrite (g_kind _ _ B) by lia. now apply (g_kind _ _ A).
  - intros z Hz D. apply (g_dead _ _ B); [lia|]. now apply (g_dead _ _ A).
  - intros z Hz. rewrite (g_weak _ _ B) by lia. now apply (g_weak _ _ A).
  - intros z Hz K. rewrite (g_probe _ _ B); [now apply (g_probe _ _ A)|lia|]. now rewrite (g_kind _ _ A).
  - intros z n w Hz K N E. apply (g_iga _ _ B); auto; [lia|now rewrite (g_kind _ _ A)|now apply (g_iga _ _ A)].
  - intros z Hz. destruct (Z_lt_le_dec z (h_next b)).
    + rewrite (g_kind _ _ B) by lia. apply (g_new _ _ A). lia.
    + apply (g_new _ _ B). lia.
Qed.
Lemma G_refl h : G h h.
Proof. constructor; auto; lia. Qed.

(** Writing a place no probe relies on. *)
Definition harmless (h : heap) (x : Z) (n : nat) : Prop :=
  (o_kind (h_obj h x) = KProbe -> n <> 1%nat) /\
  (o_kind (h_obj h x) = KIga -> (n = s_ratW \/ n = s_geoX) -> nth n (slots h x) None = None).
Lemma Ch_G_set h h' x n v : Ch (eq x) h h' -> x < h_next h -> (n < length (slots h x))%nat ->
  IsO (h_obj h' x) (o_kind (h_obj h x)) (list_set (slots h x) n v) (o_weak (h_obj h x)) -> harmless h x n -> G h h'.
Proof.
  intros C Hx Hn [K [F [S W]]] [P1 P2]. constructor; try apply C.
  - intros z Hz. destruct (Z.eq_dec z x) as [->|N]; auto. apply (c_same _ _ _ C); auto.
  - intros z Hz Kz. destruct (Z.eq_dec z x) as [->|N].
    + unfold slots at 1. rewrite S, nth_list_set by auto. destruct (Nat.eqb_spec 1 n); auto. exfalso. apply P1; auto.
    + unfold slots. assert (~ (x = z)) by congruence. destruct (c_same _ _ _ C z Hz H) as [_ [_ [-> _]]]. reflexivity.
  - intros z m w Hz Kz Hm E. destruct (Z.eq_dec z x) as [->|N].
    + unfold slots at 1. rewrite S, nth_list_set by auto. destruct (Nat.eqb_spec m n); auto. subst m.
      rewrite (P2 Kz Hm) in E. discriminate.
    + unfold slots. assert (~ (x = z)) by congruence. destruct (c_same _ _ _ C z Hz H) as [_ [_ [-> _]]]. exact E.
Qed.

Lemma kept_G r x h h' : kept r x h h' -> G h h'.
Proof.
  intros K. pose proof (k_next _ _ _ _ K). constructor; try lia; intros.
  - apply (k_kind _ _ _ _ K).
  - now apply (k_dead _ _ _ _ K).
  - apply (k_weak _ _ _ _ K).
  - now rewrite (k_slots _ _ _ _ K).
  - now rewrite (k_slots _ _ _ _ K).
Qed.

(** Taking an owned object out of place [n] of [x] and destroying it. *)
Definition drop_slot (x : Z) (n : nat) : M unit := old <- get_slot x n;; set_slot x n None;; XDestroy old.

Lemma drop_slot_ok h u x n : J h u -> live h x -> (n < arity (o_kind (h_obj h x)))%nat ->
  ok (drop_slot x n) h (fun _ h' => J h' u /\ h_next h' = h_next h /\
    IsO (h_obj h' x) (o_kind (h_obj h x)) (list_set (slots h x) n None) (o_weak (h_obj h x)) /\
    (forall z, o_kind (h_obj h' z) = o_kind (h_obj h z)) /\
    (forall z, z <> x -> slots h' z = slots h z) /\
    (forall z, o_weak (h_obj h' z) = o_weak (h_obj h z)) /\
    (forall z, o_freed (h_obj h z) = true -> o_freed (h_obj h' z) = true)).
Proof.
  intros H L Hn. unfold drop_slot. apply ok_bind. apply ok_get; auto. apply ok_bind.
  eapply ok_mono; [apply (S_clear h u x n H L Hn)|]. intros [] h1 [J1 [C1 [N1 [O1 X1]]]]. cbv beta.
  assert (Kall : forall z, o_kind (h_obj h1 z) = o_kind (h_obj h z)).
  { intros z. destruct (Z.eq_dec z x) as [->|C]; [apply X1|now rewrite O1]. }
  assert (Rall : forall z, rk h1 z = rk h z) by (intros z; unfold rk; now rewrite Kall).
  eapply ok_mono; [apply (S_destroy h1 u (nth n (slots h x) None) (rk h x) J1)|].
  - exact (J_u h u H).
  - destruct (nth n (slots h x) None) as [y|] eqn:E; [|exact I]. cbn. rewrite Rall.
    apply (J_rank h u H x y L). exact (nth_In_some _ _ _ E).
  - intros [] h2 [J2 [N2 [K2 [S2 [W2 [D2 T2]]]]]].
    assert (Ex : h_obj h2 x = h_obj h1 x) by (apply T2; rewrite Rall; lia).
    split; [exact J2|]. split; [lia|]. split; [rewrite Ex; exact X1|]. split; [intros z; now rewrite K2|].
    split; [intros z C; rewrite S2; unfold slots; now rewrite O1|].
    split; [intros z; rewrite W2; destruct (Z.eq_dec z x) as [->|C]; [apply X1|now rewrite O1]|].
    intros z D. apply D2. destruct (Z.eq_dec z x) as [->|C]; [unfold live in L; congruence|now rewrite O1].
Qed.

(** A place filled with a new reference after its content was given up (IGASetForm, IGAProbeSetVec). *)
Lemma swap_ok h u x n y : J h u -> live h x -> live h y -> (n < arity (o_kind (h_obj h x)))%nat -> rk h y < rk h x ->
  ok (reference y;; old <- get_slot x n;; set_slot x n None;; XDestroy old;; set_slot x n (Some y)) h
     (fun _ h' => J h' u /\ h_next h' = h_next h /\
       IsO (h_obj h' x) (o_kind (h_obj h x)) (list_set (slots h x) n (Some y)) (o_weak (h_obj h x)) /\
       (forall z, o_kind (h_obj h' z) = o_kind (h_obj h z)) /\
       (forall z, z <> x -> slots h' z = slots h z) /\
       (forall z, o_weak (h_obj h' z) = o_weak (h_obj h z)) /\
       (forall z, o_freed (h_obj h z) = true -> o_freed (h_obj h' z) = true)).
Proof.
  intros H L Ly Hn Rk. apply ok_bind.
  eapply ok_mono; [apply (S_reference h u y H Ly)|]. intros [] h1 [J1 [N1 A1]]. cbv beta.
  pose proof (A1 x) as Sx. pose proof Sx as [Sx1 [Sx2 [Sx3 Sx4]]].
  replace (bind (get_slot x n) _) with (bind (drop_slot x n) (fun _ => set_slot x n (Some y))).
  2: { unfold drop_slot. rewrite bind_assoc. f_equal. apply functional_extensionality. intros v. now rewrite bind_assoc. }
  apply ok_bind. eapply ok_mono; [apply (drop_slot_ok h1 _ x n J1)|].
  { eapply live_Sm; eauto. } { now rewrite Sx1. }
  intros [] h2 [J2 [N2 [O2 [K2 [S2 [W2 D2]]]]]]. cbv beta. pose proof O2 as [Ka [Fa [Sa Wa]]].
  assert (Ln : length (slots h1 x) = arity (o_kind (h_obj h x))).
  { rewrite (slots_Sm _ _ _ Sx). exact (J_len h u H x L). }
  eapply ok_mono; [apply (S_store h2 _ x n y J2)|].
  - exact (IsO_live _ _ _ _ _ O2).
  - rewrite Ka, Sx1. exact Hn.
  - unfold rk. rewrite !K2, Sx1. destruct (A1 y) as [-> _]. exact Rk.
  - unfold slots. rewrite Sa. rewrite nth_list_set by lia. now rewrite Nat.eqb_refl.
  - rewrite plus_same. pose proof (J_u h u H y). lia.
  - intros [] h3 [J3 [C3 [N3 [O3 X3]]]].
    split; [eapply J_ext; [|exact J3]; intros z; rewrite !plus_occ1; lia|]. split; [lia|].
    split.
    { rewrite Ka, Wa, Sx1, Sx4 in X3. unfold slots in X3. rewrite Sa in X3. fold (slots h1 x) in X3.
      rewrite (slots_Sm _ _ _ Sx) in X3. replace (list_set (slots h x) n (Some y)) with (list_set (list_set (slots h x) n None) n (Some y)); auto.
      clear. generalize (slots h x). intros l. revert n. induction l as [|a t IH]; intros [|n]; cbn; auto. now rewrite IH. }
    assert (Eo : forall z, z <> x -> h_obj h3 z = h_obj h2 z) by exact O3.
    split; [|split; [|split]].
    + intros z. destruct (Z.eq_dec z x) as [->|C]; [destruct X3 as [-> _]; now rewrite Ka|].
      rewrite Eo, K2 by auto. apply A1.
    + intros z C. unfold slots. rewrite Eo by auto. fold (slots h2 z). rewrite S2 by auto. apply (slots_Sm _ _ _ (A1 z)).
    + intros z. destruct (Z.eq_dec z x) as [->|C]; [destruct X3 as [_ [_ [_ ->]]]; rewrite Wa; apply A1|].
      rewrite Eo, W2 by auto. apply A1.
    + intros z D. destruct (Z.eq_dec z x) as [->|C]; [unfold live in L; congruence|].
      rewrite Eo by auto. apply D2. destruct (A1 z) as [_ [-> _]]. exact D.
Qed.

(** From the facts of [drop_slot_ok] and [swap_ok] to [G]. *)
Lemma slot_G h h' x n v : h_next h' = h_next h -> (n < length (slots h x))%nat ->
  IsO (h_obj h' x) (o_kind (h_obj h x)) (list_set (slots h x) n v) (o_weak (h_obj h x)) ->
  (forall z, o_kind (h_obj h' z) = o_kind (h_obj h z)) -> (forall z, z <> x -> slots h' z = slots h z) ->
  (forall z, o_weak (h_obj h' z) = o_weak (h_obj h z)) ->
  (forall z, o_freed (h_obj h z) = true -> o_freed (h_obj h' z) = true) -> harmless h x n -> G h h'.
Proof.
  intros N Hn [_ [_ [Sx _]]] K S W D [P1 P2]. constructor; auto; try lia.
  - intros z Hz Kz. destruct (Z.eq_dec z x) as [->|C]; [|now rewrite S].
    unfold slots at 1. rewrite Sx, nth_list_set by auto. destruct (Nat.eqb_spec 1 n); auto. exfalso. apply P1; auto.
  - intros z m w Hz Kz Hm E. destruct (Z.eq_dec z x) as [->|C]; [|now rewrite S].
    unfold slots at 1. rewrite Sx, nth_list_set by auto. destruct (Nat.eqb_spec m n); auto. subst m.
    rewrite (P2 Kz Hm) in E. discriminate.
Qed.
