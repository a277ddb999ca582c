(** Every call of the API keeps the invariant; what each leaves alone. *)
From Coq Require Import ZArith List Bool Lia FunctionalExtensionality.
Import ListNotations.
From Verif Require Import RefModel RefSpec RefProofs.
Local Open Scope Z_scope.

(** The same object but for its counter. *)
Definition Sm (o o' : obj) : Prop :=
  o_kind o' = o_kind o /\ o_freed o' = o_freed o /\ o_slots o' = o_slots o /\ o_weak o' = o_weak o.
Definition IsO (o : obj) (k : kind) (sl : list (option Z)) (w : list Z) : Prop :=
  o_kind o = k /\ o_freed o = false /\ o_slots o = sl /\ o_weak o = w.

Lemma Sm_refl o : Sm o o.
Proof. now repeat split. Qed.
Lemma Sm_trans a b c : Sm a b -> Sm b c -> Sm a c.
Proof. unfold Sm; intuition congruence. Qed.
Lemma IsO_Sm o o' k sl w : IsO o k sl w -> Sm o o' -> IsO o' k sl w.
Proof. unfold Sm, IsO; intuition congruence. Qed.
Lemma live_Sm h h' x : live h x -> Sm (h_obj h x) (h_obj h' x) -> live h' x.
Proof. unfold live, Sm; intuition congruence. Qed.
Lemma rk_Sm h h' x : Sm (h_obj h x) (h_obj h' x) -> rk h' x = rk h x.
Proof. unfold rk, Sm; intuition congruence. Qed.
Lemma slots_Sm h h' x : Sm (h_obj h x) (h_obj h' x) -> slots h' x = slots h x.
Proof. unfold slots, Sm; intuition congruence. Qed.
Lemma IsO_live h x k sl w : IsO (h_obj h x) k sl w -> live h x.
Proof. unfold IsO, live; tauto. Qed.
Lemma IsO_self h x : live h x -> IsO (h_obj h x) (o_kind (h_obj h x)) (slots h x) (o_weak (h_obj h x)).
Proof. unfold IsO, live, slots; auto. Qed.

(** What has changed: of the objects that existed only those in [S], and no probe is new. *)
Record Ch (S : Z -> Prop) (h h' : heap) : Prop := mk_Ch {
  c_next : h_next h <= h_next h';
  c_same : forall z, z < h_next h -> ~ S z -> Sm (h_obj h z) (h_obj h' z);
  c_kind : forall z, z < h_next h -> o_kind (h_obj h' z) = o_kind (h_obj h z);
  c_dead : forall z, z < h_next h -> o_freed (h_obj h z) = true -> o_freed (h_obj h' z) = true;
  c_new : forall z, h_next h <= z < h_next h' -> o_kind (h_obj h' z) <> KProbe }.
Definition nil : Z -> Prop := fun _ => False.

Lemma Ch_trans S T h h' h'' : Ch S h h' -> Ch T h' h'' -> (forall z, T z -> S z \/ h_next h <= z) -> Ch S h h''.
Proof.
  intros A B C. pose proof (c_next _ _ _ A). pose proof (c_next _ _ _ B). constructor.
  - lia.
  - intros z Hz N. eapply Sm_trans; [apply (c_same _ _ _ A); auto|apply (c_same _ _ _ B); [lia|]].
    intros Tz. destruct (C z Tz); [auto|lia].
  - intros z Hz. rewrite (c_kind _ _ _ B) by lia. apply (c_kind _ _ _ A); auto.
  - intros z Hz D. apply (c_dead _ _ _ B); [lia|]. apply (c_dead _ _ _ A); auto.
  - intros z Hz. destruct (Z_lt_le_dec z (h_next h')) as [Lt|Ge].
    + rewrite (c_kind _ _ _ B) by lia. apply (c_new _ _ _ A). lia.
    + apply (c_new _ _ _ B). lia.
Qed.
Lemma Ch_refl S h : Ch S h h.
Proof. constructor; intros; auto using Sm_refl; lia. Qed.
Lemma Ch_nil S h h' : Ch nil h h' -> Ch S h h'.
Proof. intros A; constructor; intros; try apply A; auto. Qed.

(** All objects the same but for counters. *)
Definition AllSm (h h' : heap) : Prop := h_next h' = h_next h /\ forall z, Sm (h_obj h z) (h_obj h' z).
Lemma AllSm_Ch h h' : AllSm h h' -> Ch nil h h'.
Proof.
  intros [N A]. constructor; intros; auto; try lia; try apply A.
  destruct (A z) as [_ [E _]]. congruence.
Qed.

Lemma S_alloc h u k : J h u -> k <> KProbe ->
  ok (alloc k (arity k)) h (fun x h' => J h' (plus u x 1) /\ Ch nil h h' /\ x = h_next h /\ h_next h' = h_next h + 1 /\
    IsO (h_obj h' x) k (repeat None (arity k)) []).
Proof.
  intros H Kp. apply (ok_alloc h u); auto. intros h' J' N' O' X'. rewrite X'.
  split; [exact J'|]. split; [|split; [auto|split; [exact N'|now repeat split]]].
  constructor; try lia.
  - intros z Hz _. rewrite O' by lia. apply Sm_refl.
  - intros z Hz. now rewrite O' by lia.
  - intros z Hz. now rewrite O' by lia.
  - intros z Hz. replace z with (h_next h) by lia. now rewrite X'.
Qed.

Lemma S_reference h u x : J h u -> live h x ->
  ok (reference x) h (fun _ h' => J h' (plus u x 1) /\ AllSm h h').
Proof.
  intros H L. apply (ok_reference h u); auto. intros h' J' N' O' X'. split; auto. split; auto.
  intros z. destruct (Z.eq_dec z x) as [->|C]; [rewrite X'|rewrite O' by auto]; [|apply Sm_refl].
  unfold live in L. now repeat split.
Qed.

Lemma S_destroy_held h u x : J h u -> 1 <= u x -> 1 <= cnt h x ->
  ok (destroy depth x) h (fun _ h' => J h' (plus u x (-1)) /\ AllSm h h').
Proof.
  intros H U C. pose proof (live_u h u x H U) as L. apply (ok_destroy_held h u); auto. intros h' J' N' O' X'.
  split; auto. split; auto.
  intros z. destruct (Z.eq_dec z x) as [->|N]; [rewrite X'|rewrite O' by auto]; [|apply Sm_refl].
  unfold live in L. now repeat split.
Qed.

Lemma S_set h u u' x n v : J h u -> live h x -> (n < arity (o_kind (h_obj h x)))%nat -> vlt h v (rk h x) ->
  (forall z, u' z = u z + occ1 z (nth n (slots h x) None) - occ1 z v) -> (forall z, 0 <= u' z) ->
  ok (set_slot x n v) h (fun _ h' => J h' u' /\ Ch (eq x) h h' /\ h_next h' = h_next h /\
    (forall z, z <> x -> h_obj h' z = h_obj h z) /\
    IsO (h_obj h' x) (o_kind (h_obj h x)) (list_set (slots h x) n v) (o_weak (h_obj h x))).
Proof.
  intros H L Hn V U Up. apply (ok_set h u u'); auto. intros h' J' N' O' X'. rewrite X'.
  split; [exact J'|]. split; [|split; [auto|split; [exact O'|now repeat split]]].
  constructor; try lia.
  - intros z Hz Nz. rewrite O' by congruence. apply Sm_refl.
  - intros z Hz. destruct (Z.eq_dec z x) as [->|C]; [now rewrite X'|now rewrite O'].
  - intros z Hz. destruct (Z.eq_dec z x) as [->|C]; [unfold live in L; congruence|now rewrite O'].
Qed.

(** Storing a reference held by the caller in an empty place. *)
Lemma S_store h u x n y : J h u -> live h x -> (n < arity (o_kind (h_obj h x)))%nat -> rk h y < rk h x ->
  nth n (slots h x) None = None -> 1 <= u y ->
  ok (set_slot x n (Some y)) h (fun _ h' => J h' (plus u y (-1)) /\ Ch (eq x) h h' /\ h_next h' = h_next h /\
    (forall z, z <> x -> h_obj h' z = h_obj h z) /\
    IsO (h_obj h' x) (o_kind (h_obj h x)) (list_set (slots h x) n (Some y)) (o_weak (h_obj h x))).
Proof.
  intros H L Hn V E U. apply (S_set h u); auto.
  - intros z. rewrite E, plus_occ1. cbn [occ1]. destruct (y =? z); lia.
  - intros z. unfold plus. pose proof (J_u h u H z). destruct (Z.eqb_spec z y); subst; lia.
Qed.

(** Emptying a place: the caller holds what was there. *)
Definition gain (u : owner) (v : option Z) : owner := fun z => u z + occ1 z v.
Lemma S_clear h u x n : J h u -> live h x -> (n < arity (o_kind (h_obj h x)))%nat ->
  ok (set_slot x n None) h (fun _ h' => J h' (gain u (nth n (slots h x) None)) /\ Ch (eq x) h h' /\ h_next h' = h_next h /\
    (forall z, z <> x -> h_obj h' z = h_obj h z) /\
    IsO (h_obj h' x) (o_kind (h_obj h x)) (list_set (slots h x) n None) (o_weak (h_obj h x))).
Proof.
  intros H L Hn. apply (S_set h u); auto.
  - exact I.
  - intros z. unfold gain. cbn. lia.
  - intros z. unfold gain. pose proof (J_u h u H z). pose proof (occ1_nonneg z (nth n (slots h x) None)). lia.
Qed.

Lemma rank_le k : 0 <= rank k <= 5.
Proof. destruct k; cbn; lia. Qed.

(** Destroying what the caller took out of an object of rank [r]. *)
Lemma S_destroy h u v r : J h (gain u v) -> (forall z, 0 <= u z) -> vlt h v r ->
  ok (XDestroy v) h (fun _ h' => J h' u /\ h_next h' = h_next h /\
    (forall z, o_kind (h_obj h' z) = o_kind (h_obj h z)) /\ (forall z, slots h' z = slots h z) /\
    (forall z, o_weak (h_obj h' z) = o_weak (h_obj h z)) /\
    (forall z, o_freed (h_obj h z) = true -> o_freed (h_obj h' z) = true) /\
    (forall z, r <= rk h z -> h_obj h' z = h_obj h z)).
Proof.
  intros H U V. destruct v as [y|]; cbn [XDestroy].
  - eapply ok_mono; [apply destroy_ok; [exact H| |]|].
    + unfold gain; cbn. rewrite Z.eqb_refl. specialize (U y). lia.
    + unfold rk. pose proof (rank_le (o_kind (h_obj h y))). cbn. lia.
    + intros [] h' [J' K]. split.
      { eapply J_ext; [|exact J']. intros z. rewrite plus_occ1. unfold gain. lia. }
      split; [exact (k_next _ _ _ _ K)|]. split; [exact (k_kind _ _ _ _ K)|]. split; [exact (k_slots _ _ _ _ K)|].
      split; [exact (k_weak _ _ _ _ K)|]. split; [exact (k_dead _ _ _ _ K)|].
      intros z Rz. cbn in V. apply (k_high _ _ _ _ K); [intros ->; lia|lia].
  - cbn. split; [|repeat split; auto]. eapply J_ext; [|exact H]. intros z. unfold gain; cbn. lia.
Qed.

Lemma attach_ok h u i n k : J h u -> live h i -> (n < arity (o_kind (h_obj h i)))%nat -> rank k < rk h i -> arity k = 0%nat ->
  k <> KProbe -> nth n (slots h i) None = None ->
  ok (attach i n k) h (fun _ h' => J h' u /\ Ch (eq i) h h' /\ live h' i /\
    IsO (h_obj h' i) (o_kind (h_obj h i)) (list_set (slots h i) n (Some (h_next h))) (o_weak (h_obj h i))).
Proof.
  intros H L Hn Rk A0 Kp E. unfold attach. apply ok_bind. rewrite <- A0.
  pose proof (J_range h u H i L) as Ri.
  eapply ok_mono; [apply (S_alloc h u); auto|]. intros x h1 [J1 [C1 [-> [N1 O1]]]]. cbv beta.
  pose proof (c_same _ _ _ C1 i ltac:(lia) (fun f => f)) as Si.
  eapply ok_mono; [apply (S_store h1 (plus u (h_next h) 1)); auto|].
  - eapply live_Sm; eauto.
  - destruct Si as [-> _]. exact Hn.
  - rewrite (rk_Sm _ _ _ Si). unfold rk at 1. destruct O1 as [-> _]. exact Rk.
  - rewrite (slots_Sm _ _ _ Si). exact E.
  - rewrite plus_same. pose proof (J_u h u H (h_next h)). lia.
  - intros [] h2 [J2 [C2 [N2 [O2 X2]]]]. split; [|split; [|split]].
    + eapply J_ext; [|exact J2]. intros z. rewrite !plus_occ1. lia.
    + eapply Ch_trans; [apply Ch_nil; exact C1|exact C2|]. auto.
    + exact (IsO_live _ _ _ _ _ X2).
    + destruct Si as [S1 [S2 [S3 S4]]]. unfold slots in *. rewrite <- S1, <- S3, <- S4. exact X2.
Qed.

Lemma hold_ok h u x n y : J h u -> live h x -> live h y -> (n < arity (o_kind (h_obj h x)))%nat -> rk h y < rk h x ->
  nth n (slots h x) None = None ->
  ok (hold x n y) h (fun _ h' => J h' u /\ Ch (eq x) h h' /\ h_next h' = h_next h /\
    (forall z, z <> x -> Sm (h_obj h z) (h_obj h' z)) /\
    IsO (h_obj h' x) (o_kind (h_obj h x)) (list_set (slots h x) n (Some y)) (o_weak (h_obj h x))).
Proof.
  intros H L Ly Hn Rk E. unfold hold. apply ok_bind.
  eapply ok_mono; [apply (S_reference h u); auto|]. intros [] h1 [J1 [N1 A1]]. cbv beta.
  pose proof (A1 x) as Sx.
  eapply ok_mono; [apply (S_store h1 (plus u y 1)); auto|].
  - eapply live_Sm; eauto.
  - destruct Sx as [-> _]. exact Hn.
  - rewrite (rk_Sm _ _ _ Sx), (rk_Sm _ _ _ (A1 y)). exact Rk.
  - rewrite (slots_Sm _ _ _ Sx). exact E.
  - rewrite plus_same. pose proof (J_u h u H y). lia.
  - intros [] h2 [J2 [C2 [N2 [O2 X2]]]]. split; [|split; [|split; [lia|split]]].
    + eapply J_ext; [|exact J2]. intros z. rewrite !plus_occ1. lia.
    + eapply Ch_trans; [apply Ch_nil, AllSm_Ch; split; eauto|exact C2|]. auto.
    + intros z Nz. rewrite O2 by auto. apply A1.
    + destruct Sx as [S1 [S2 [S3 S4]]]. unfold slots in *. rewrite <- S1, <- S3, <- S4. exact X2.
Qed.

(** * Creating *)
(** [x] is a new object with content [k], [sl], [w], held once by the caller. *)
Definition Made (u : owner) (h : heap) (x : Z) (h' : heap) (k : kind) (sl : list (option Z)) (w : list Z) : Prop :=
  J h' (plus u x 1) /\ Ch nil h h' /\ x = h_next h /\ x < h_next h' /\ IsO (h_obj h' x) k sl w.

Lemma made_next u h x h' k sl w : Made u h x h' k sl w -> x < h_next h'.
Proof. unfold Made; tauto. Qed.
Lemma made_live u h x h' k sl w : Made u h x h' k sl w -> live h' x.
Proof. intros [_ [_ [_ [_ O]]]]. exact (IsO_live _ _ _ _ _ O). Qed.

Lemma made_attach u h x h1 k sl n kc : Made u h x h1 k sl [] -> (n < arity k)%nat -> rank kc < rank k -> arity kc = 0%nat ->
  kc <> KProbe -> nth n sl None = None ->
  ok (attach x n kc) h1 (fun _ h2 => exists a, Made u h x h2 k (list_set sl n (Some a)) [] /\ h_next h <= a).
Proof.
  intros [J1 [C1 [E1 [N1 O1]]]] Hn Rk A0 Kp En. pose proof O1 as [K1 [F1 [S1 W1]]].
  eapply ok_mono; [apply (attach_ok h1 (plus u x 1)); auto|].
  - rewrite K1; auto.
  - unfold rk. rewrite K1; auto.
  - unfold slots. rewrite S1; auto.
  - intros [] h2 [J2 [C2 [L2 X2]]]. exists (h_next h1). unfold slots in X2. rewrite K1, S1, W1 in X2.
    split; [|exact (c_next _ _ _ C1)]. split; [exact J2|]. split; [|split; [auto|split; [pose proof (c_next _ _ _ C2); lia|exact X2]]].
    eapply Ch_trans; [exact C1|exact C2|]. intros z <-. right; lia.
Qed.

Lemma alloc_made h u k : J h u -> k <> KProbe ->
  ok (alloc k (arity k)) h (fun x h' => Made u h x h' k (repeat None (arity k)) []).
Proof.
  intros H Kp. eapply ok_mono; [apply (S_alloc h u); auto|]. intros x h' [A [B [C [D E]]]].
  split; [exact A|]. split; [exact B|]. split; [exact C|]. split; [lia|exact E].
Qed.

Lemma made_hold u h x h1 k sl w n y : Made u h x h1 k sl w -> (n < arity k)%nat -> live h1 y -> rk h1 y < rank k ->
  nth n sl None = None ->
  ok (hold x n y) h1 (fun _ h2 => Made u h x h2 k (list_set sl n (Some y)) w /\
    (forall z, z <> x -> Sm (h_obj h1 z) (h_obj h2 z))).
Proof.
  intros [J1 [C1 [E1 [N1 O1]]]] Hn Ly Rk En. pose proof O1 as [K1 [F1 [S1 W1]]].
  eapply ok_mono; [apply (hold_ok h1 (plus u x 1)); auto|].
  - rewrite K1; auto.
  - unfold rk at 2. rewrite K1; auto.
  - unfold slots. rewrite S1; auto.
  - intros [] h2 [J2 [C2 [L2 [A2 X2]]]]. unfold slots in X2. rewrite K1, S1, W1 in X2. split; [|exact A2].
    split; [exact J2|]. split; [|split; [auto|split; [lia|exact X2]]].
    eapply Ch_trans; [exact C1|exact C2|]. intros z <-. right; lia.
Qed.

Lemma made_old u h x h' k sl w z : Made u h x h' k sl w -> z < h_next h -> Sm (h_obj h z) (h_obj h' z).
Proof. intros [_ [C _]] Hz. apply (c_same _ _ _ C); auto. Qed.

(** Something [m] made after [x] was made, then the caller still holds both. *)
Lemma made_then u h x h1 k sl w y h2 k' sl' w' :
  Made u h x h1 k sl w -> Made (plus u x 1) h1 y h2 k' sl' w' ->
  IsO (h_obj h2 x) k sl w /\ x <> y /\ Ch nil h h2 /\ J h2 (plus (plus u x 1) y 1).
Proof.
  intros A B. pose proof A as [J1 [C1 [E1 [N1 O1]]]]. pose proof B as [J2 [C2 [E2 [N2 O2]]]].
  split; [eapply IsO_Sm; [exact O1|exact (made_old _ _ _ _ _ _ _ x B N1)]|]. split; [lia|]. split; [|exact J2].
  eapply Ch_trans; [exact C1|exact C2|]. intros z [].
Qed.

(** The caller hands [y], made after [x] and stored in [x], back. *)
Lemma made_drop u h x k sl w y h3 : J h3 (plus (plus u x 1) y 1) -> Ch nil h h3 -> x = h_next h -> x < h_next h3 ->
  IsO (h_obj h3 x) k sl w -> In (Some y) sl -> (forall z, 0 <= u z) -> x <> y ->
  ok (destroy depth y) h3 (fun _ h4 => Made u h x h4 k sl w /\ AllSm h3 h4).
Proof.
  intros J3 C3 E N O I U Ny. pose proof (IsO_live _ _ _ _ _ O) as Lx.
  eapply ok_mono; [apply (S_destroy_held h3 (plus (plus u x 1) y 1)); auto|].
  - rewrite plus_same. unfold plus. specialize (U y). destruct (y =? x); lia.
  - eapply cnt_ge; [exact J3|exact Lx|]. unfold slots. destruct O as [_ [_ [-> _]]]. exact I.
  - intros [] h4 [J4 A4]. split; [|exact A4]. split; [|split; [|split; [auto|split]]].
    + eapply J_ext; [|exact J4]. intros z. rewrite !plus_occ1. lia.
    + eapply Ch_trans; [exact C3|apply AllSm_Ch; exact A4|]. intros z [].
    + destruct A4 as [-> _]. exact N.
    + eapply IsO_Sm; [exact O|]. apply A4.
Qed.

Lemma IGAElementCreate_ok h u : J h u ->
  ok IGAElementCreate h (fun e h' => exists p, Made u h e h' KElem [Some p] []).
Proof.
  intros H. unfold IGAElementCreate. apply ok_bind.
  eapply ok_mono; [apply (alloc_made h u KElem); auto; discriminate|]. intros e h1 M1. cbv beta. apply ok_bind.
  eapply ok_mono; [apply (made_attach u h e h1 KElem [None] 0 KPoint M1); cbn; auto; try lia; discriminate|].
  intros [] h2 [a [M2 _]]. cbn in M2. apply ok_ret. now exists a.
Qed.

(** All pointers in a list are to objects that are new since [h]. *)
Definition AllNew (h : heap) (l : list (option Z)) : Prop :=
  Forall (fun v => match v with Some a => h_next h <= a | None => True end) l.

Lemma IGACreate_ok h u : J h u ->
  ok IGACreate h (fun i h' => exists sl, Made u h i h' KIga sl [] /\
    nth s_ratW sl None = None /\ nth s_geoX sl None = None /\ length sl = 13%nat /\ AllNew h sl).
Proof.
  intros H. unfold IGACreate, iga_create_dir. apply ok_bind.
  eapply ok_mono; [apply (alloc_made h u KIga); auto; discriminate|]. intros i h0 M0. cbv beta. cbn [repeat arity] in M0.
  Ltac att M :=
    apply ok_bind; eapply ok_mono;
    [apply (made_attach _ _ _ _ _ _ _ _ M); cbn; auto; try lia; discriminate|];
    let a := fresh "a" in let h' := fresh "h" in let M' := fresh "M" in
    let B := fresh "B" in intros [] h' [a [M' B]]; cbv beta; cbn [list_set Nat.mul Nat.add s_form] in M'.
  apply ok_bind. att M0. att M. eapply ok_mono; [apply (made_attach _ _ _ _ _ _ _ _ M1); cbn; auto; try lia; discriminate|].
  intros [] h3 [a3 [M3 B3']]. cbv beta. cbn [list_set Nat.mul Nat.add] in M3.
  apply ok_bind. att M3. att M2. eapply ok_mono; [apply (made_attach _ _ _ _ _ _ _ _ M4); cbn; auto; try lia; discriminate|].
  intros [] h6 [a6 [M6 B6']]. cbv beta. cbn [list_set Nat.mul Nat.add] in M6.
  apply ok_bind. att M6. att M5. eapply ok_mono; [apply (made_attach _ _ _ _ _ _ _ _ M7); cbn; auto; try lia; discriminate|].
  intros [] h9 [a9 [M9 B9']]. cbv beta. cbn [list_set Nat.mul Nat.add] in M9.
  att M9. apply ok_bind.
  pose proof M8 as [J10 _].
  eapply ok_mono; [apply (IGAElementCreate_ok _ _ J10)|]. intros e h11 [p Me]. cbv beta.
  destruct (made_then _ _ _ _ _ _ _ _ _ _ _ _ M8 Me) as [O11 [Ne [C11 J11]]].
  apply ok_bind. pose proof O11 as [K11 [F11 [S11 W11]]].
  eapply ok_mono; [apply (S_store h11 (plus (plus u i 1) e 1)); auto|].
  - rewrite K11. unfold s_iter. cbn. lia.
  - unfold rk. rewrite K11. pose proof Me as [_ [_ [_ [_ [Ke _]]]]]. rewrite Ke. cbn. lia.
  - unfold slots. rewrite S11. reflexivity.
  - rewrite plus_same. pose proof (J_u _ _ J10 e). lia.
  - intros [] h12 [J12 [C12 [N12 [O12 X12]]]]. apply ok_ret. rewrite K11, W11 in X12. unfold slots in X12. rewrite S11 in X12.
    cbn [list_set s_iter] in X12. eexists. split; [split; [|split; [|split; [|split; [|exact X12]]]]|].
    + eapply J_ext; [|exact J12]. intros z. rewrite !plus_occ1. lia.
    + eapply Ch_trans; [exact C11|exact C12|]. intros z <-. right. destruct M8 as [_ [_ [-> _]]]. lia.
    + destruct M8 as [_ [_ [E _]]]. exact E.
    + rewrite N12. pose proof (c_next _ _ _ (proj1 (proj2 Me))). destruct M8 as [_ [_ [_ [Q _]]]]. lia.
    + split; [reflexivity|]. split; [reflexivity|]. split; [reflexivity|].
      assert (h_next h <= e) by (destruct M8 as [_ [Ca _]]; destruct Me as [_ [_ [-> _]]]; exact (c_next _ _ _ Ca)).
      repeat (constructor; [cbn; assumption || exact I|]). constructor.
Qed.
