(** The invariant of the reference counts and its preservation by every call. *)
From Coq Require Import ZArith List Bool Lia FunctionalExtensionality.
Import ListNotations.
From Verif Require Import RefModel RefSpec.
Local Open Scope Z_scope.

(** * Sums over the heap *)
Fixpoint tot (f : Z -> Z) (n : nat) : Z :=
  match n with O => 0 | S m => tot f m + f (Z.of_nat m) end.

Lemma tot_ext f g n : (forall z, 0 <= z < Z.of_nat n -> f z = g z) -> tot f n = tot g n.
Proof.
  induction n as [|n IH]; intros H; [reflexivity|].
  cbn [tot]. rewrite IH by (intros; apply H; lia). rewrite H by lia. reflexivity.
Qed.

Lemma tot_change f g n x : 0 <= x < Z.of_nat n -> (forall z, z <> x -> f z = g z) ->
  tot g n = tot f n + (g x - f x).
Proof.
  induction n as [|n IH]; intros Hx H; [lia|].
  cbn [tot]. destruct (Z.eq_dec x (Z.of_nat n)) as [->|C].
  - rewrite (tot_ext g f) by (intros; symmetry; apply H; lia). lia.
  - rewrite IH by (auto; lia). rewrite (H (Z.of_nat n)) by auto. lia.
Qed.

Lemma tot_nonneg f n : (forall z, 0 <= f z) -> 0 <= tot f n.
Proof. intros H; induction n; cbn [tot]; [lia|]. specialize (H (Z.of_nat n)). lia. Qed.

Lemma tot_ge f n x : (forall z, 0 <= f z) -> 0 <= x < Z.of_nat n -> f x <= tot f n.
Proof.
  intros H; induction n as [|n IH]; intros Hx; [lia|]. cbn [tot].
  destruct (Z.eq_dec x (Z.of_nat n)) as [->|C].
  - pose proof (tot_nonneg f n H). lia.
  - specialize (IH ltac:(lia)). specialize (H (Z.of_nat n)). lia.
Qed.

Lemma tot_pos f n : (forall z, 0 <= f z) -> 0 < tot f n -> exists x, 0 <= x < Z.of_nat n /\ 0 < f x.
Proof.
  intros H; induction n as [|n IH]; cbn [tot]; intros P; [lia|].
  destruct (Z.eq_dec (f (Z.of_nat n)) 0) as [E|E].
  - destruct IH as [x Hx]; [lia|]. exists x. split; [lia|tauto].
  - exists (Z.of_nat n). specialize (H (Z.of_nat n)). lia.
Qed.

(** * Occurrences of a pointer *)
Definition occ1 (x : Z) (v : option Z) : Z := match v with Some y => if y =? x then 1 else 0 | None => 0 end.
Fixpoint occ (x : Z) (l : list (option Z)) : Z :=
  match l with [] => 0 | v :: t => occ1 x v + occ x t end.

Lemma occ1_nonneg x v : 0 <= occ1 x v.
Proof. destruct v as [y|]; cbn; [destruct (y =? x)|]; lia. Qed.
Lemma occ_nonneg x l : 0 <= occ x l.
Proof. induction l as [|v t IH]; cbn; [lia|]. pose proof (occ1_nonneg x v). lia. Qed.
Lemma occ_none x n : occ x (repeat None n) = 0.
Proof. induction n; cbn in *; lia. Qed.
Lemma occ_pos x l : 0 < occ x l <-> In (Some x) l.
Proof.
  induction l as [|v t IH]; cbn; [split; [lia|tauto]|].
  pose proof (occ_nonneg x t). pose proof (occ1_nonneg x v). split.
  - intros H1. destruct v as [y|]; cbn in *.
    + destruct (Z.eqb_spec y x); [subst; now left|]. right. apply IH. lia.
    + right. apply IH. lia.
  - intros [->|H1]; cbn; [rewrite Z.eqb_refl; lia|]. apply IH in H1. lia.
Qed.

Lemma list_set_length l n v : length (list_set l n v) = length l.
Proof. revert n; induction l; intros [|n]; cbn; auto. Qed.
Lemma occ_list_set x l n v : (n < length l)%nat ->
  occ x (list_set l n v) = occ x l - occ1 x (nth n l None) + occ1 x v.
Proof.
  revert n; induction l as [|a t IH]; intros [|n] H; cbn in *; try lia.
  rewrite IH by lia. lia.
Qed.
Lemma nth_list_set l n m v : (n < length l)%nat ->
  nth m (list_set l n v) None = if Nat.eqb m n then v else nth m l None.
Proof.
  revert n m; induction l as [|a t IH]; intros [|n] [|m] H; cbn in *; try lia; auto.
  apply IH. lia.
Qed.
Lemma In_list_set y l n v : In (Some y) (list_set l n v) -> v = Some y \/ In (Some y) l.
Proof.
  revert n; induction l as [|a t IH]; intros [|n]; cbn; [tauto|tauto| |].
  - intros [H|H]; auto.
  - intros [H|H]; auto. destruct (IH _ H); auto.
Qed.
Lemma list_set_same l n : list_set l n (nth n l None) = l.
Proof. revert n; induction l as [|a t IH]; intros [|n]; cbn; auto. now rewrite IH. Qed.

(** * The invariant *)
Definition rank (k : kind) : Z :=
  match k with
  | KArr | KPoint | KAxis | KRule | KBasis | KForm => 0
  | KElem => 1 | KIga => 2 | KDm => 3 | KVec => 4 | KSolver | KProbe => 5
  end.
Definition arity (k : kind) : nat :=
  match k with KElem => 1 | KIga => 13 | KDm => 1 | KVec => 2 | KSolver => 5 | KProbe => 2 | _ => 0 end%nat.
Definition rk (h : heap) (x : Z) : Z := rank (o_kind (h_obj h x)).
Definition live (h : heap) (x : Z) : Prop := o_freed (h_obj h x) = false.
Definition slots (h : heap) (x : Z) := o_slots (h_obj h x).

Definition weight (o : obj) (x : Z) : Z := if o_freed o then 0 else occ x (o_slots o).
Definition cnt (h : heap) (x : Z) : Z := tot (fun z => weight (h_obj h z) x) (Z.to_nat (h_next h)).

Lemma weight_nonneg o x : 0 <= weight o x.
Proof. unfold weight. destruct (o_freed o); [lia|apply occ_nonneg]. Qed.
Lemma cnt_nonneg h x : 0 <= cnt h x.
Proof. apply tot_nonneg. intros; apply weight_nonneg. Qed.

Record J (h : heap) (u : owner) : Prop := mk_J {
  J_n : 0 <= h_next h;
  J_u : forall x, 0 <= u x;
  J_range : forall x, live h x -> 0 <= x < h_next h;
  J_live : forall x, live h x -> o_ref (h_obj h x) = u x + cnt h x /\ 1 <= o_ref (h_obj h x);
  J_dead : forall x, o_freed (h_obj h x) = true -> u x = 0 /\ cnt h x = 0;
  J_len : forall x, live h x -> length (slots h x) = arity (o_kind (h_obj h x));
  J_rank : forall x y, live h x -> In (Some y) (slots h x) -> rk h y < rk h x }.

Lemma J_ext h u u' : (forall x, u x = u' x) -> J h u -> J h u'.
Proof. intros E. replace u' with u; auto. now apply functional_extensionality. Qed.

Lemma live_dec h x : live h x \/ o_freed (h_obj h x) = true.
Proof. unfold live. destruct (o_freed (h_obj h x)); auto. Qed.

Lemma live_u h u x : J h u -> 1 <= u x -> live h x.
Proof. intros H U. destruct (live_dec h x) as [L|D]; auto. apply (J_dead h u H) in D. lia. Qed.

Lemma cnt_ge h u x y : J h u -> live h x -> In (Some y) (slots h x) -> 1 <= cnt h y.
Proof.
  intros H L I. pose proof (J_range h u H x L).
  assert (weight (h_obj h x) y <= cnt h y).
  { apply (tot_ge (fun z => weight (h_obj h z) y) (Z.to_nat (h_next h)) x); [intros; apply weight_nonneg|lia]. }
  unfold weight in *. rewrite L in *. apply occ_pos in I. unfold slots in *. lia.
Qed.

Lemma live_slot h u x y : J h u -> live h x -> In (Some y) (slots h x) -> live h y.
Proof.
  intros H L I. pose proof (cnt_ge h u x y H L I).
  destruct (live_dec h y) as [L'|D]; auto. apply (J_dead h u H) in D. lia.
Qed.

Lemma cnt_put h x o z : 0 <= x < h_next h ->
  cnt (put x o h) z = cnt h z - weight (h_obj h x) z + weight o z.
Proof.
  intros Hx. unfold cnt.
  rewrite (tot_change (fun y => weight (h_obj h y) z) (fun y => weight (h_obj (put x o h) y) z) _ x).
  - cbn. rewrite Z.eqb_refl. lia.
  - cbn. lia.
  - intros y C. cbn. destruct (Z.eqb_spec y x); congruence.
Qed.

Lemma put_same x o h : h_obj (put x o h) x = o.
Proof. cbn. now rewrite Z.eqb_refl. Qed.
Lemma put_other x o h z : z <> x -> h_obj (put x o h) z = h_obj h z.
Proof. intros C. cbn. destruct (Z.eqb_spec z x); congruence. Qed.

Lemma plus_same u x d : plus u x d x = u x + d.
Proof. unfold plus. now rewrite Z.eqb_refl. Qed.
Lemma plus_other u x d z : z <> x -> plus u x d z = u z.
Proof. intros C. unfold plus. destruct (Z.eqb_spec z x); congruence. Qed.
Lemma plus_occ1 u y d z : plus u y d z = u z + d * occ1 z (Some y).
Proof. unfold plus, occ1. rewrite (Z.eqb_sym y z). destruct (z =? y); lia. Qed.

(** * A call that does not fault *)
Definition ok {A} (m : M A) (h : heap) (Q : A -> heap -> Prop) : Prop :=
  match m h with Done a h' => Q a h' | Failed _ => True | Fault => False end.

Lemma ok_bind {A B} (m : M A) (f : A -> M B) h (Q : B -> heap -> Prop) :
  ok m h (fun a h' => ok (f a) h' Q) -> ok (bind m f) h Q.
Proof. unfold ok, bind. destruct (m h); auto. Qed.
Lemma ok_mono {A} (m : M A) h (Q Q' : A -> heap -> Prop) :
  ok m h Q -> (forall a h', Q a h' -> Q' a h') -> ok m h Q'.
Proof. unfold ok. destruct (m h); auto. Qed.
Lemma ok_ret {A} (a : A) h (Q : A -> heap -> Prop) : Q a h -> ok (ret a) h Q.
Proof. auto. Qed.
Lemma ok_err {A} h (Q : A -> heap -> Prop) : ok err h Q.
Proof. exact I. Qed.

Lemma ok_alloc h u k (Q : Z -> heap -> Prop) : J h u ->
  (forall h', J h' (plus u (h_next h) 1) -> h_next h' = h_next h + 1 ->
     (forall z, z <> h_next h -> h_obj h' z = h_obj h z) ->
     h_obj h' (h_next h) = mk_obj k 1 false (repeat None (arity k)) [] -> Q (h_next h) h') ->
  ok (alloc k (arity k)) h Q.
Proof.
  intros H K. unfold ok, alloc. set (x := h_next h) in *.
  set (h' := mk_heap (x + 1) _).
  assert (Ox : h_obj h' x = mk_obj k 1 false (repeat None (arity k)) []) by (cbn; now rewrite Z.eqb_refl).
  assert (Oz : forall z, z <> x -> h_obj h' z = h_obj h z) by (intros z C; cbn; destruct (Z.eqb_spec z x); congruence).
  assert (Hn : 0 <= x) by exact (J_n h u H).
  assert (Dx : o_freed (h_obj h x) = true).
  { destruct (live_dec h x) as [L|D]; auto. apply (J_range h u H) in L. subst x. lia. }
  assert (Cn : forall z, cnt h' z = cnt h z).
  { intros z. unfold cnt. change (h_next h') with (x + 1). replace (Z.to_nat (x + 1)) with (S (Z.to_nat x)) by lia.
    cbn [tot]. rewrite Z2Nat.id by lia. rewrite Ox. unfold weight at 2. cbn [o_freed o_slots]. rewrite occ_none.
    fold x. rewrite Z.add_0_r. apply tot_ext. intros y Hy. rewrite Oz by lia. reflexivity. }
  apply K; auto. constructor.
  - cbn. lia.
  - intros z. unfold plus. pose proof (J_u h u H z). destruct (z =? x); lia.
  - intros z L. change (h_next h') with (x + 1). unfold live in L. destruct (Z.eq_dec z x) as [->|C]; [lia|].
    rewrite Oz in L by auto. apply (J_range h u H) in L. fold x in L. lia.
  - intros z L. rewrite Cn. unfold live in L. destruct (Z.eq_dec z x) as [->|C].
    + rewrite Ox, plus_same. cbn [o_ref]. destruct (J_dead h u H x Dx) as [-> ->]. lia.
    + rewrite Oz in * by auto. rewrite plus_other by auto. exact (J_live h u H z L).
  - intros z D. rewrite Cn. destruct (Z.eq_dec z x) as [->|C]; [rewrite Ox in D; discriminate|].
    rewrite Oz in D by auto. rewrite plus_other by auto. exact (J_dead h u H z D).
  - intros z L. unfold slots, live in *. destruct (Z.eq_dec z x) as [->|C].
    + rewrite Ox. cbn. apply repeat_length.
    + rewrite Oz in * by auto. exact (J_len h u H z L).
  - intros z y L I. unfold slots, live, rk in *. destruct (Z.eq_dec z x) as [->|C].
    + rewrite Ox in I. cbn in I. apply repeat_spec in I. discriminate.
    + rewrite (Oz z C) in L, I. rewrite (Oz z C). assert (Ly : live h y) by exact (live_slot h u z y H L I).
      destruct (Z.eq_dec y x) as [->|C']; [unfold live in Ly; congruence|].
      rewrite (Oz y C'). exact (J_rank h u H z y L I).
Qed.

(** Replacing the object [x] by one with the same kind, alive, and bookkeeping that adds up. *)
Lemma J_put h u u' x o :
  J h u -> live h x -> o_freed o = false -> o_kind o = o_kind (h_obj h x) -> length (o_slots o) = length (slots h x) ->
  (forall y, In (Some y) (o_slots o) -> rk h y < rk h x) ->
  (forall z, z <> x -> u' z + occ z (o_slots o) = u z + occ z (slots h x)) ->
  u' x + occ x (o_slots o) - o_ref o = u x + occ x (slots h x) - o_ref (h_obj h x) ->
  1 <= o_ref o -> (forall z, 0 <= u' z) ->
  (forall z, o_freed (h_obj h z) = true -> u' z = 0) ->
  J (put x o h) u'.
Proof.
  intros H L Lo K Len Rk Uz Ux Ro Up Ud.
  pose proof (J_range h u H x L) as Rx.
  assert (Cn : forall z, cnt (put x o h) z = cnt h z - occ z (slots h x) + occ z (o_slots o)).
  { intros z. rewrite cnt_put by auto. unfold weight, slots. unfold live in L. rewrite L, Lo. reflexivity. }
  assert (Kd : forall z, rk (put x o h) z = rk h z).
  { intros z. unfold rk. destruct (Z.eq_dec z x) as [->|C]; [rewrite put_same|rewrite put_other by auto]; congruence. }
  constructor; auto.
  - exact (J_n h u H).
  - intros z Lz. cbn [h_next put]. destruct (Z.eq_dec z x) as [->|C]; auto.
    unfold live in Lz. rewrite put_other in Lz by auto. exact (J_range h u H z Lz).
  - intros z Lz. rewrite Cn. destruct (Z.eq_dec z x) as [->|C].
    + rewrite put_same. destruct (J_live h u H x L). split; lia.
    + unfold live in Lz. rewrite put_other in * by auto. destruct (J_live h u H z Lz). specialize (Uz z C). split; lia.
  - intros z D. rewrite Cn. destruct (Z.eq_dec z x) as [->|C]; [rewrite put_same in D; congruence|].
    rewrite put_other in D by auto. destruct (J_dead h u H z D). specialize (Uz z C). rewrite (Ud z D) in *.
    split; [auto|lia].
  - intros z Lz. unfold slots, live in *. destruct (Z.eq_dec z x) as [->|C].
    + rewrite put_same, Len, K. exact (J_len h u H x L).
    + rewrite put_other in * by auto. exact (J_len h u H z Lz).
  - intros z y Lz I. rewrite !Kd. unfold slots, live in *. destruct (Z.eq_dec z x) as [->|C].
    + rewrite put_same in I. auto.
    + rewrite put_other in * by auto. exact (J_rank h u H z y Lz I).
Qed.

Lemma ok_reference h u x (Q : unit -> heap -> Prop) : J h u -> live h x ->
  (forall h', J h' (plus u x 1) -> h_next h' = h_next h -> (forall z, z <> x -> h_obj h' z = h_obj h z) ->
     h_obj h' x = mk_obj (o_kind (h_obj h x)) (o_ref (h_obj h x) + 1) false (slots h x) (o_weak (h_obj h x)) ->
     Q tt h') ->
  ok (reference x) h Q.
Proof.
  intros H L K. unfold ok, reference. rewrite L.
  apply K; auto using put_same, put_other. destruct (J_live h u H x L).
  apply (J_put h u); auto; cbn [o_freed o_kind o_slots o_ref]; unfold slots.
  - intros y I. exact (J_rank h u H x y L I).
  - intros z C. now rewrite plus_other.
  - rewrite plus_same. lia.
  - lia.
  - intros z. unfold plus. pose proof (J_u h u H z). destruct (z =? x); lia.
  - intros z D. destruct (J_dead h u H z D). rewrite plus_other; auto. intros ->. unfold live in L. congruence.
Qed.

Lemma ok_get h x n (Q : option Z -> heap -> Prop) : live h x -> Q (nth n (slots h x) None) h -> ok (get_slot x n) h Q.
Proof. intros L K. unfold ok, get_slot. unfold live in L. rewrite L. exact K. Qed.
Lemma ok_touch h x (Q : unit -> heap -> Prop) : live h x -> Q tt h -> ok (touch x) h Q.
Proof. intros L K. unfold ok, touch. unfold live in L. rewrite L. exact K. Qed.

Definition vlt (h : heap) (v : option Z) (r : Z) : Prop := match v with Some y => rk h y < r | None => True end.

Lemma ok_set h u u' x n v (Q : unit -> heap -> Prop) : J h u -> live h x -> (n < arity (o_kind (h_obj h x)))%nat ->
  vlt h v (rk h x) ->
  (forall z, u' z = u z + occ1 z (nth n (slots h x) None) - occ1 z v) -> (forall z, 0 <= u' z) ->
  (forall h', J h' u' -> h_next h' = h_next h -> (forall z, z <> x -> h_obj h' z = h_obj h z) ->
     h_obj h' x = mk_obj (o_kind (h_obj h x)) (o_ref (h_obj h x)) false (list_set (slots h x) n v) (o_weak (h_obj h x)) ->
     Q tt h') ->
  ok (set_slot x n v) h Q.
Proof.
  intros H L Hn V U Up K. unfold ok, set_slot. rewrite L.
  apply K; auto using put_same, put_other. destruct (J_live h u H x L).
  pose proof (J_len h u H x L) as Len.
  assert (Oc : forall z, occ z (list_set (slots h x) n v) = occ z (slots h x) - occ1 z (nth n (slots h x) None) + occ1 z v).
  { intros z. apply occ_list_set. lia. }
  apply (J_put h u); auto; cbn [o_freed o_kind o_slots o_ref].
  - apply list_set_length.
  - intros y I. apply In_list_set in I. destruct I as [->|I]; [exact V|exact (J_rank h u H x y L I)].
  - intros z C. fold (slots h x). rewrite Oc, U. lia.
  - fold (slots h x). rewrite Oc, U. lia.
  - intros z D. specialize (Up z). rewrite U in *. destruct (J_dead h u H z D) as [Uz Cz]. rewrite Uz in *.
    assert (occ1 z (nth n (slots h x) None) = 0).
    { destruct (nth n (slots h x) None) as [y|] eqn:E; [|reflexivity]. cbn. destruct (Z.eqb_spec y z); [|reflexivity].
      subst y. assert (In (Some z) (slots h x)). { rewrite <- E. apply nth_In. lia. }
      pose proof (cnt_ge h u x z H L H2). lia. }
    pose proof (occ1_nonneg z v). lia.
Qed.

Lemma ok_set_weak h u x w (Q : unit -> heap -> Prop) : J h u -> live h x ->
  (forall h', J h' u -> h_next h' = h_next h -> (forall z, z <> x -> h_obj h' z = h_obj h z) ->
     h_obj h' x = mk_obj (o_kind (h_obj h x)) (o_ref (h_obj h x)) false (slots h x) w -> Q tt h') ->
  ok (set_weak x w) h Q.
Proof.
  intros H L K. unfold ok, set_weak. rewrite L.
  apply K; auto using put_same, put_other. destruct (J_live h u H x L).
  apply (J_put h u); auto; cbn [o_freed o_kind o_slots o_ref]; try lia.
  - intros y I. exact (J_rank h u H x y L I).
  - intros z. exact (J_u h u H z).
  - intros z D. exact (proj1 (J_dead h u H z D)).
Qed.

(** Giving back a reference to something another object holds too. *)
Lemma ok_destroy_held h u x f (Q : unit -> heap -> Prop) : J h u -> 1 <= u x -> 1 <= cnt h x ->
  (forall h', J h' (plus u x (-1)) -> h_next h' = h_next h -> (forall z, z <> x -> h_obj h' z = h_obj h z) ->
     h_obj h' x = mk_obj (o_kind (h_obj h x)) (o_ref (h_obj h x) - 1) false (slots h x) (o_weak (h_obj h x)) ->
     Q tt h') ->
  ok (destroy (S f) x) h Q.
Proof.
  intros H U C K. pose proof (live_u h u x H U) as L. destruct (J_live h u H x L) as [Rx Rp].
  unfold ok, destroy. rewrite L. destruct (Z.ltb_spec 1 (o_ref (h_obj h x))); [|lia].
  apply K; auto using put_same, put_other.
  apply (J_put h u); auto; cbn [o_freed o_kind o_slots o_ref]; try lia.
  - intros y I. exact (J_rank h u H x y L I).
  - intros z N. now rewrite plus_other.
  - rewrite plus_same. unfold slots. lia.
  - intros z. unfold plus. pose proof (J_u h u H z). destruct (Z.eqb_spec z x); subst; lia.
  - intros z D. destruct (J_dead h u H z D). rewrite plus_other; auto. intros ->. unfold live in L. congruence.
Qed.

(** What a destruction leaves alone. *)
Record kept (r : Z) (x : Z) (h h' : heap) : Prop := mk_kept {
  k_next : h_next h' = h_next h;
  k_kind : forall z, o_kind (h_obj h' z) = o_kind (h_obj h z);
  k_slots : forall z, slots h' z = slots h z;
  k_weak : forall z, o_weak (h_obj h' z) = o_weak (h_obj h z);
  k_dead : forall z, o_freed (h_obj h z) = true -> o_freed (h_obj h' z) = true;
  k_high : forall z, z <> x -> r <= rk h z -> h_obj h' z = h_obj h z }.

Lemma J_free h u x : J h u -> u x = 1 -> cnt h x = 0 ->
  J (put x (mk_obj (o_kind (h_obj h x)) 0 true (slots h x) (o_weak (h_obj h x))) h)
    (fun z => plus u x (-1) z + occ z (slots h x)).
Proof.
  intros H U C. assert (L : live h x) by (apply (live_u h u); auto; lia).
  set (o := mk_obj _ _ _ _ _). pose proof (J_range h u H x L) as Rx.
  assert (Ox : occ x (slots h x) = 0).
  { pose proof (occ_nonneg x (slots h x)). destruct (Z.eq_dec (occ x (slots h x)) 0); auto.
    assert (In (Some x) (slots h x)) by (apply occ_pos; lia). apply (J_rank h u H x x L) in H1. lia. }
  assert (Cn : forall z, cnt (put x o h) z = cnt h z - occ z (slots h x)).
  { intros z. rewrite cnt_put by auto. unfold weight. unfold live in L. rewrite L. cbn [o o_freed]. unfold slots. lia. }
  assert (Kd : forall z, rk (put x o h) z = rk h z).
  { intros z. unfold rk. destruct (Z.eq_dec z x) as [->|N]; [rewrite put_same|rewrite put_other by auto]; reflexivity. }
  constructor.
  - exact (J_n h u H).
  - intros z. pose proof (J_u h u H z). pose proof (occ_nonneg z (slots h x)). unfold plus.
    destruct (Z.eqb_spec z x); subst; lia.
  - intros z Lz. unfold live in Lz. destruct (Z.eq_dec z x) as [->|N]; [rewrite put_same in Lz; discriminate|].
    rewrite put_other in Lz by auto. exact (J_range h u H z Lz).
  - intros z Lz. unfold live in Lz. destruct (Z.eq_dec z x) as [->|N]; [rewrite put_same in Lz; discriminate|].
    rewrite put_other in * by auto. rewrite Cn, plus_other by auto. destruct (J_live h u H z Lz). lia.
  - intros z D. rewrite Cn. destruct (Z.eq_dec z x) as [->|N].
    + rewrite plus_same. lia.
    + rewrite put_other in D by auto. rewrite plus_other by auto. destruct (J_dead h u H z D) as [Uz Cz].
      assert (occ z (slots h x) = 0).
      { pose proof (occ_nonneg z (slots h x)). destruct (Z.eq_dec (occ z (slots h x)) 0); auto.
        assert (I : In (Some z) (slots h x)) by (apply occ_pos; lia). pose proof (cnt_ge h u x z H L I). lia. }
      lia.
  - intros z Lz. unfold slots, live in *. destruct (Z.eq_dec z x) as [->|N]; [rewrite put_same in Lz; discriminate|].
    rewrite put_other in * by auto. exact (J_len h u H z Lz).
  - intros z y Lz I. rewrite !Kd. unfold slots, live in *.
    destruct (Z.eq_dec z x) as [->|N]; [rewrite put_same in Lz; discriminate|].
    rewrite put_other in * by auto. exact (J_rank h u H z y Lz I).
Qed.

Fixpoint release (f : nat) (l : list (option Z)) : M unit :=
  match l with
  | [] => ret tt
  | None :: t => release f t
  | Some y :: t => destroy f y ;; release f t
  end.

Lemma destroy_unfold f x h :
  destroy (S f) x h =
  let o := h_obj h x in
  if o_freed o then Fault
  else if 1 <? o_ref o
  then Done tt (put x (mk_obj (o_kind o) (o_ref o - 1) false (o_slots o) (o_weak o)) h)
  else release f (o_slots o) (put x (mk_obj (o_kind o) 0 true (o_slots o) (o_weak o)) h).
Proof.
  cbn [destroy]. destruct (o_freed (h_obj h x)); [reflexivity|]. cbn zeta.
  destruct (1 <? o_ref (h_obj h x)); [reflexivity|].
  match goal with |- ?F _ _ = release _ _ _ => assert (E : forall l, F l = release f l) end.
  { induction l as [|[y|] t IH]; [reflexivity| |exact IH]. cbn [release]. now rewrite IH. }
  now rewrite E.
Qed.

Lemma kept_trans r r' x y h h' h'' : kept r x h h' -> kept r' y h' h'' -> r' < r ->
  (forall z, rk h z = rk h' z) -> rk h y < r ->
  kept r x h h''.
Proof.
  intros A B Rr Kd Ry. constructor.
  - rewrite (k_next _ _ _ _ B). exact (k_next _ _ _ _ A).
  - intros z. rewrite (k_kind _ _ _ _ B). exact (k_kind _ _ _ _ A z).
  - intros z. rewrite (k_slots _ _ _ _ B). exact (k_slots _ _ _ _ A z).
  - intros z. rewrite (k_weak _ _ _ _ B). exact (k_weak _ _ _ _ A z).
  - intros z D. apply (k_dead _ _ _ _ B). exact (k_dead _ _ _ _ A z D).
  - intros z N Rz. rewrite (k_high _ _ _ _ B); [apply (k_high _ _ _ _ A); auto| |].
    + intros ->. lia.
    + rewrite <- Kd. lia.
Qed.

Lemma rk_kept r x h h' : kept r x h h' -> forall z, rk h z = rk h' z.
Proof. intros K z. unfold rk. now rewrite (k_kind _ _ _ _ K). Qed.

Lemma destroy_ok f : forall x h u, J h u -> 1 <= u x -> rk h x < Z.of_nat f ->
  ok (destroy f x) h (fun _ h' => J h' (plus u x (-1)) /\ kept (rk h x) x h h').
Proof.
  induction f as [|f IH]; intros x h u H U Rf.
  { exfalso. unfold rk in Rf. destruct (o_kind (h_obj h x)); cbn in Rf; lia. }
  pose proof (live_u h u x H U) as L. destruct (J_live h u H x L) as [Rx Rp].
  destruct (Z_lt_le_dec 1 (o_ref (h_obj h x))) as [C|C].
  - destruct (Z_le_gt_dec 1 (cnt h x)) as [Cx|Cx].
    + apply (ok_destroy_held h u); auto. intros h' J' N' O' X'. split; auto.
      assert (S : forall z, o_kind (h_obj h' z) = o_kind (h_obj h z) /\ slots h' z = slots h z /\
                            o_weak (h_obj h' z) = o_weak (h_obj h z) /\ o_freed (h_obj h' z) = o_freed (h_obj h z)).
      { intros z. unfold slots. destruct (Z.eq_dec z x) as [->|N]; [rewrite X'|rewrite O' by auto]; cbn; auto. }
      constructor; auto; intros z; destruct (S z) as [S1 [S2 [S3 S4]]]; auto. rewrite S4; auto.
    + unfold ok. rewrite destroy_unfold. cbn zeta. rewrite L. destruct (Z.ltb_spec 1 (o_ref (h_obj h x))); [|lia].
      pose proof (cnt_nonneg h x).
      split.
      * apply (J_put h u); auto; cbn [o_freed o_kind o_slots o_ref]; try lia.
        -- intros y I. exact (J_rank h u H x y L I).
        -- intros z N. now rewrite plus_other.
        -- rewrite plus_same. unfold slots. lia.
        -- intros z. unfold plus. pose proof (J_u h u H z). destruct (Z.eqb_spec z x); subst; lia.
        -- intros z D. destruct (J_dead h u H z D). rewrite plus_other; auto. intros ->. unfold live in L. congruence.
      * set (h' := put _ _ _).
        assert (S : forall z, o_kind (h_obj h' z) = o_kind (h_obj h z) /\ slots h' z = slots h z /\
                            o_weak (h_obj h' z) = o_weak (h_obj h z) /\ o_freed (h_obj h' z) = o_freed (h_obj h z)).
        { intros z. unfold slots, h'. destruct (Z.eq_dec z x) as [->|N]; [rewrite put_same|rewrite put_other by auto];
          cbn; auto. }
        constructor; auto; intros z; destruct (S z) as [S1 [S2 [S3 S4]]]; auto. rewrite S4; auto.
        intros N _. now apply put_other.
  - pose proof (cnt_nonneg h x). assert (U1 : u x = 1) by lia. assert (C0 : cnt h x = 0) by lia.
    unfold ok. rewrite destroy_unfold. cbn zeta. rewrite L. destruct (Z.ltb_spec 1 (o_ref (h_obj h x))); [lia|].
    pose proof (J_free h u x H U1 C0) as JF. fold (slots h x). set (h1 := put _ _ _) in *.
    assert (K1 : kept (rk h x) x h h1).
    { assert (S : forall z, o_kind (h_obj h1 z) = o_kind (h_obj h z) /\ slots h1 z = slots h z /\
                            o_weak (h_obj h1 z) = o_weak (h_obj h z)).
      { intros z. unfold slots, h1. destruct (Z.eq_dec z x) as [->|N]; [rewrite put_same|rewrite put_other by auto];
          cbn; auto. }
      constructor; auto; try (intros z; destruct (S z) as [S1 [S2 S3]]; auto).
      - intros D. unfold h1. destruct (Z.eq_dec z x) as [->|N]; [now rewrite put_same|now rewrite put_other].
      - intros N _. now apply put_other. }
    assert (Rl : forall y, In (Some y) (slots h x) -> rk h y < rk h x) by (intros y I; exact (J_rank h u H x y L I)).
    clearbody h1. clear H1. revert Rl JF K1. generalize (slots h x) as l. intros l Rl. revert h1.
    assert (U0 : forall z, 0 <= plus u x (-1) z).
    { intros z. unfold plus. pose proof (J_u h u H z). destruct (Z.eqb_spec z x); subst; lia. }
    set (u0 := plus u x (-1)) in *. clearbody u0.
    induction l as [|[y|] t IHl]; intros h1 JF K1.
    + cbn [release ret]. split; auto. apply (J_ext h1 (fun z => u0 z + occ z [])); auto. intros; cbn; lia.
    + cbn [release]. unfold bind.
      assert (Uy : 1 <= u0 y + occ y (Some y :: t)).
      { cbn. rewrite Z.eqb_refl. pose proof (occ_nonneg y t). specialize (U0 y). lia. }
      assert (Ry : rk h1 y < rk h x) by (rewrite <- (rk_kept _ _ _ _ K1); apply Rl; now left).
      specialize (IH y h1 _ JF Uy ltac:(lia)). unfold ok in IH. destruct (destroy f y h1) as [[] h2|h2|]; auto.
      destruct IH as [J2 K2]. apply IHl.
      * intros z I. apply Rl. now right.
      * eapply J_ext; [|exact J2]. intros z. rewrite plus_occ1. cbn [occ]. lia.
      * eapply kept_trans; eauto; [apply (rk_kept _ _ _ _ K1)|rewrite (rk_kept _ _ _ _ K1); exact Ry].
    + apply IHl; auto. intros z I. apply Rl. now right.
Qed.
