(** Integer boxes in three directions, linear numbering, position of an element in a list. *)
From Coq Require Import ZArith List Bool Lia Permutation.
From Coq Require Import ZifyBool ZifyNat.
From Verif Require Import Prelude.
Import ListNotations.
Open Scope Z_scope.

Notation triple := (Z * Z * Z)%type.

(** The loop nest [for k, for j, for i] over [s, s+w): innermost index first in the tuple. *)
Definition box (s w : Z -> Z) : list triple :=
  flat_map (fun k => flat_map (fun j => map (fun i => (i, j, k)) (zseq (s 0) (w 0)))
                              (zseq (s 1) (w 1))) (zseq (s 2) (w 2)).

(** i + j*N0 + k*N0*N1 *)
Definition lin (N : Z -> Z) (t : triple) : Z :=
  let '(i, j, k) := t in i + j * N 0 + k * (N 0 * N 1).

Definition in_box (s w : Z -> Z) (t : triple) : Prop :=
  let '(i, j, k) := t in
  s 0 <= i < s 0 + w 0 /\ s 1 <= j < s 1 + w 1 /\ s 2 <= k < s 2 + w 2.

Definition in_boxb (s w : Z -> Z) (t : triple) : bool :=
  let '(i, j, k) := t in
  (s 0 <=? i) && (i <? s 0 + w 0) && ((s 1 <=? j) && (j <? s 1 + w 1)) && ((s 2 <=? k) && (k <? s 2 + w 2)).

Definition vol (w : Z -> Z) : Z := w 0 * w 1 * w 2.

Definition zero3 : Z -> Z := fun _ => 0.

Lemma in_boxb_spec : forall s w t, in_boxb s w t = true <-> in_box s w t.
Proof. intros s w [[i j] k]. unfold in_boxb, in_box. lia. Qed.

Lemma In_box : forall s w t, In t (box s w) <-> in_box s w t.
Proof.
  intros s w [[i j] k]. unfold box, in_box. rewrite in_flat_map. split.
  - intros (k' & Hk & H). rewrite in_flat_map in H. destruct H as (j' & Hj & H).
    rewrite in_map_iff in H. destruct H as (i' & E & Hi). inversion E; subst.
    rewrite in_zseq in *. auto.
  - intros (Hi & Hj & Hk). exists k. split; [apply in_zseq; lia|]. apply in_flat_map.
    exists j. split; [apply in_zseq; lia|]. apply in_map_iff. exists i. split; auto. apply in_zseq; lia.
Qed.

Lemma NoDup_flat_map : forall (A B : Type) (f : A -> list B) (l : list A),
  NoDup l -> (forall a, In a l -> NoDup (f a)) ->
  (forall a b x, In a l -> In b l -> In x (f a) -> In x (f b) -> a = b) ->
  NoDup (flat_map f l).
Proof.
  intros A B f l. induction l as [|a l IH]; intros Hl Hf Hd; cbn [flat_map]; [constructor|].
  inversion Hl; subst.
  assert (H : NoDup (flat_map f l)).
  { apply IH; auto. - intros; apply Hf; right; auto. - intros a0 b x Ha Hb. apply Hd; right; auto. }
  clear IH. assert (Hfa : NoDup (f a)) by (apply Hf; left; auto).
  assert (Hdis : forall x, In x (f a) -> ~ In x (flat_map f l)).
  { intros x Hx Hin. apply in_flat_map in Hin. destruct Hin as (b & Hb & Hxb).
    assert (a = b) by (eapply Hd; eauto; [left|right]; auto). subst b. contradiction. }
  clear - H Hfa Hdis. induction (f a) as [|y ys IH]; cbn [app]; auto.
  inversion Hfa; subst. constructor.
  - rewrite in_app_iff. intros [K|K]; [contradiction|]. apply (Hdis y); [left; auto|auto].
  - apply IH; auto. intros x Hx. apply Hdis. right; auto.
Qed.

Lemma NoDup_map_inj : forall (A B : Type) (f : A -> B) l,
  (forall x y, In x l -> In y l -> f x = f y -> x = y) -> NoDup l -> NoDup (map f l).
Proof.
  intros A B f l. induction l as [|a l IH]; intros Hf Hl; cbn [map]; [constructor|].
  inversion Hl; subst. constructor.
  - rewrite in_map_iff. intros (y & E & Hy). assert (y = a) by (apply Hf; auto; [right|left]; auto). subst; contradiction.
  - apply IH; auto. intros x y Hx Hy. apply Hf; right; auto.
Qed.

Lemma NoDup_box : forall s w, NoDup (box s w).
Proof.
  intros s w. unfold box. apply NoDup_flat_map.
  - apply NoDup_zseq.
  - intros k Hk. apply NoDup_flat_map.
    + apply NoDup_zseq.
    + intros j Hj. apply NoDup_map_inj; [|apply NoDup_zseq]. intros x y _ _ E. congruence.
    + intros a b x _ _ Ha Hb. rewrite in_map_iff in *. destruct Ha as (? & <- & _). destruct Hb as (? & E & _). congruence.
  - intros a b x _ _ Ha Hb. rewrite in_flat_map in *. destruct Ha as (j1 & _ & Ha). destruct Hb as (j2 & _ & Hb).
    rewrite in_map_iff in *. destruct Ha as (? & <- & _). destruct Hb as (? & E & _). congruence.
Qed.

Lemma length_flat_map_const : forall (A B : Type) (f : A -> list B) (l : list A) n,
  (forall a, In a l -> length (f a) = n) -> length (flat_map f l) = (length l * n)%nat.
Proof.
  intros A B f l n. induction l as [|a l IH]; intros H; cbn [flat_map length]; auto.
  rewrite app_length, IH by (intros; apply H; right; auto). rewrite (H a) by (left; auto). lia.
Qed.

Lemma length_box : forall s w, (forall i, 0 <= w i) -> length (box s w) = Z.to_nat (vol w).
Proof.
  intros s w Hw. unfold box.
  rewrite length_flat_map_const with (n := (Z.to_nat (w 1%Z) * Z.to_nat (w 0%Z))%nat).
  - rewrite length_zseq. unfold vol. rewrite !Z2Nat.inj_mul; try apply Hw; try (apply Z.mul_nonneg_nonneg; apply Hw). lia.
  - intros k _. rewrite length_flat_map_const with (n := Z.to_nat (w 0)).
    + rewrite length_zseq. reflexivity.
    + intros j _. rewrite map_length, length_zseq. reflexivity.
Qed.

Lemma nth_flat_map_const : forall (A B : Type) (f : A -> list B) (l : list A) n q r da db,
  (forall a, In a l -> length (f a) = n) -> (r < n)%nat -> (q < length l)%nat ->
  nth (q * n + r) (flat_map f l) db = nth r (f (nth q l da)) db.
Proof.
  intros A B f l n. induction l as [|a l IH]; intros q r da db Hf Hr Hq; cbn [length] in Hq; [lia|].
  cbn [flat_map]. assert (E : length (f a) = n) by (apply Hf; left; auto).
  destruct q as [|q].
  - cbn [nth]. rewrite app_nth1 by lia. reflexivity.
  - rewrite app_nth2 by lia. replace (S q * n + r - length (f a))%nat with (q * n + r)%nat by lia.
    cbn [nth]. apply IH; auto; [intros; apply Hf; right; auto|lia].
Qed.

(** The element at position lin w (i,j,k) of the box is s + (i,j,k). *)
Lemma nth_box : forall s w i j k d, 0 <= i < w 0 -> 0 <= j < w 1 -> 0 <= k < w 2 ->
  nth (Z.to_nat (lin w (i, j, k))) (box s w) d = (s 0 + i, s 1 + j, s 2 + k).
Proof.
  intros s w i j k d Hi Hj Hk. unfold lin.
  assert (E : Z.to_nat (i + j * w 0 + k * (w 0 * w 1)) =
    (Z.to_nat k * (Z.to_nat (w 1%Z) * Z.to_nat (w 0%Z)) + (Z.to_nat j * Z.to_nat (w 0%Z) + Z.to_nat i))%nat).
  { generalize (w 0) (w 1) Hi Hj. intros a b Ha Hb.
    assert (0 <= j * a) by (apply Z.mul_nonneg_nonneg; lia).
    assert (0 <= a * b) by (apply Z.mul_nonneg_nonneg; lia).
    assert (0 <= k * (a * b)) by (apply Z.mul_nonneg_nonneg; lia).
    rewrite Z2Nat.inj_add by lia. rewrite (Z2Nat.inj_add i) by lia. rewrite !Z2Nat.inj_mul by lia. nia. }
  rewrite E. unfold box.
  rewrite nth_flat_map_const with (da := 0).
  - rewrite nth_zseq by lia. rewrite nth_flat_map_const with (da := 0).
    + rewrite nth_zseq by lia. rewrite nth_indep with (d' := (fun i0 => (i0, s 1 + Z.of_nat (Z.to_nat j), s 2 + Z.of_nat (Z.to_nat k))) 0)
        by (rewrite map_length, length_zseq; lia).
      rewrite map_nth with (f := fun i0 => (i0, s 1 + Z.of_nat (Z.to_nat j), s 2 + Z.of_nat (Z.to_nat k))).
      rewrite nth_zseq by lia. f_equal; [f_equal|]; lia.
    + intros. rewrite map_length, length_zseq; auto.
    + lia.
    + rewrite length_zseq; lia.
  - intros k0 _. rewrite length_flat_map_const with (n := Z.to_nat (w 0)).
    + rewrite length_zseq; auto.
    + intros. rewrite map_length, length_zseq; auto.
  - nia.
  - rewrite length_zseq; lia.
Qed.

Lemma lin_range_aux : forall a b c i j k, 0 <= i < a -> 0 <= j < b -> 0 <= k < c ->
  0 <= i + j * a + k * (a * b) < a * b * c.
Proof.
  intros a b c i j k Hi Hj Hk.
  assert (0 <= j * a) by (apply Z.mul_nonneg_nonneg; lia).
  assert (0 <= a * b) by (apply Z.mul_nonneg_nonneg; lia).
  assert (0 <= k * (a * b)) by (apply Z.mul_nonneg_nonneg; lia).
  assert ((j+1) * a <= b * a) by (apply Z.mul_le_mono_nonneg_r; lia).
  assert ((k+1) * (a*b) <= c * (a*b)) by (apply Z.mul_le_mono_nonneg_r; lia).
  lia.
Qed.

Lemma lin_range : forall N i j k, 0 <= i < N 0 -> 0 <= j < N 1 -> 0 <= k < N 2 -> 0 <= lin N (i,j,k) < vol N.
Proof. intros N i j k Hi Hj Hk. unfold lin, vol. apply lin_range_aux; auto. Qed.

(** Coordinates of a linear index. *)
Definition unlin (N : Z -> Z) (x : Z) : triple :=
  (x mod N 0, (x / N 0) mod N 1, x / (N 0 * N 1)).

Lemma unlin_lin : forall N i j k, 0 <= i < N 0 -> 0 <= j < N 1 -> unlin N (lin N (i,j,k)) = (i,j,k).
Proof.
  intros N i j k Hi Hj. unfold unlin, lin.
  assert (N 0 <> 0) by lia. assert (N 1 <> 0) by lia. assert (0 < N 0 * N 1) by nia.
  assert (E1 : (i + j * N 0 + k * (N 0 * N 1)) mod N 0 = i).
  { replace (i + j * N 0 + k * (N 0 * N 1)) with (i + (j + k * N 1) * N 0) by ring.
    rewrite Z.mod_add by auto. apply Z.mod_small; auto. }
  assert (E2 : (i + j * N 0 + k * (N 0 * N 1)) / N 0 = j + k * N 1).
  { replace (i + j * N 0 + k * (N 0 * N 1)) with (i + (j + k * N 1) * N 0) by ring.
    rewrite Z.div_add by auto. rewrite Z.div_small by auto. lia. }
  rewrite E1, E2, Z.mod_add, Z.mod_small by auto.
  rewrite Z.div_add by lia. rewrite Z.div_small by nia. f_equal. 
Qed.

Lemma lin_inj : forall N t t', in_box zero3 N t -> in_box zero3 N t' -> lin N t = lin N t' -> t = t'.
Proof.
  intros N [[i j] k] [[i' j'] k'] H H' E. unfold in_box, zero3 in *.
  rewrite <- (unlin_lin N i j k), <- (unlin_lin N i' j' k') by lia. congruence.
Qed.

Lemma lin_unlin : forall N x, 0 < N 0 -> 0 < N 1 -> 0 < N 2 -> 0 <= x < vol N ->
  lin N (unlin N x) = x /\ in_box zero3 N (unlin N x).
Proof.
  intros N x H0 H1 H2 Hx. unfold unlin, in_box, zero3, lin, vol in *.
  rewrite <- Z.div_div by lia.
  set (a := x / N 0). set (b := a / N 1).
  assert (E1 : x = N 0 * a + x mod N 0) by (apply Z.div_mod; lia).
  assert (E2 : a = N 1 * b + a mod N 1) by (apply Z.div_mod; lia).
  assert (B1 : 0 <= x mod N 0 < N 0) by (apply Z.mod_pos_bound; auto).
  assert (B2 : 0 <= a mod N 1 < N 1) by (apply Z.mod_pos_bound; auto).
  assert (Ha : 0 <= a) by (apply Z.div_pos; lia).
  assert (Hb : 0 <= b) by (apply Z.div_pos; lia).
  assert (Ha2 : a < N 1 * N 2).
  { apply Z.div_lt_upper_bound; [lia|]. lia. }
  assert (Hb2 : b < N 2).
  { apply Z.div_lt_upper_bound; lia. }
  split; [|lia].
  transitivity (N 0 * (N 1 * b + a mod N 1) + x mod N 0); [ring|]. rewrite <- E2. lia.
Qed.

(* ------------------------------------------------------------------ *)
(** Position of x in l, -1 when absent. *)
Fixpoint index_of (x : Z) (l : list Z) : Z :=
  match l with
  | [] => -1
  | y :: l' => if y =? x then 0 else let i := index_of x l' in if i <? 0 then i else i + 1
  end.

Lemma index_of_absent : forall x l, ~ In x l -> index_of x l = -1.
Proof.
  induction l as [|y l IH]; intros H; cbn [index_of]; auto.
  destruct (y =? x) eqn:E; [exfalso; apply H; left; lia|].
  rewrite IH; [reflexivity|]. intros K; apply H; right; auto.
Qed.

Lemma index_of_in : forall x l d, In x l ->
  0 <= index_of x l < Z.of_nat (length l) /\ nth (Z.to_nat (index_of x l)) l d = x.
Proof.
  induction l as [|y l IH]; intros d H; [destruct H|]. cbn [index_of length].
  destruct (y =? x) eqn:E.
  - split; [lia|]. change (Z.to_nat 0) with 0%nat. cbn [nth]. lia.
  - destruct H as [H|H]; [lia|]. destruct (IH d H) as [A B].
    replace (index_of x l <? 0) with false by lia. split; [lia|].
    replace (Z.to_nat (index_of x l + 1)) with (S (Z.to_nat (index_of x l))) by lia. exact B.
Qed.

Lemma index_of_nth : forall l i d, NoDup l -> (i < length l)%nat -> index_of (nth i l d) l = Z.of_nat i.
Proof.
  induction l as [|y l IH]; intros i d Hl Hi; cbn [length] in Hi; [lia|]. inversion Hl; subst.
  destruct i as [|i]; cbn [nth index_of].
  - rewrite Z.eqb_refl. reflexivity.
  - rewrite IH by (auto; lia).
    destruct (y =? nth i l d) eqn:E.
    + exfalso. apply H1. replace y with (nth i l d) by lia. apply nth_In. lia.
    + replace (Z.of_nat i <? 0) with false by lia. lia.
Qed.

Lemma index_of_app_l : forall x l l', In x l -> index_of x (l ++ l') = index_of x l.
Proof.
  induction l as [|y l IH]; intros l' H; [destruct H|]. cbn [app index_of].
  destruct (y =? x) eqn:E; auto. destruct H as [H|H]; [lia|]. rewrite IH by auto. reflexivity.
Qed.

Lemma index_of_app_r : forall x l l', ~ In x l -> In x l' ->
  index_of x (l ++ l') = Z.of_nat (length l) + index_of x l'.
Proof.
  induction l as [|y l IH]; intros l' H H'; cbn [app index_of length].
  - lia.
  - destruct (y =? x) eqn:E; [exfalso; apply H; left; lia|].
    rewrite IH; auto; [|intros K; apply H; right; auto].
    destruct (index_of_in x l' 0 H'). replace (_ <? 0) with false by lia. lia.
Qed.

(* ------------------------------------------------------------------ *)
(** Filtering a box by a sub-box gives the sub-box. *)
Lemma filter_flat_map : forall (A B : Type) (f : A -> list B) (P : B -> bool) l,
  filter P (flat_map f l) = flat_map (fun a => filter P (f a)) l.
Proof.
  intros. induction l as [|a l IH]; cbn [flat_map filter]; auto. rewrite filter_app, IH. reflexivity.
Qed.

Lemma flat_map_if : forall (A B : Type) (f : A -> list B) (c : A -> bool) l,
  flat_map (fun a => if c a then f a else []) l = flat_map f (filter c l).
Proof.
  intros. induction l as [|a l IH]; cbn [flat_map filter]; auto. destruct (c a); cbn [flat_map app]; rewrite IH; reflexivity.
Qed.

Lemma filter_none : forall (A : Type) (P : A -> bool) l, (forall x, In x l -> P x = false) -> filter P l = [].
Proof.
  induction l as [|a l IH]; intros H; cbn [filter]; auto. rewrite (H a) by (left; auto). apply IH. intros; apply H; right; auto.
Qed.
Lemma filter_all : forall (A : Type) (P : A -> bool) l, (forall x, In x l -> P x = true) -> filter P l = l.
Proof.
  induction l as [|a l IH]; intros H; cbn [filter]; auto. rewrite (H a) by (left; auto). f_equal. apply IH. intros; apply H; right; auto.
Qed.

Lemma filter_zseq : forall s n a b, s <= a -> 0 <= b -> a + b <= s + n ->
  filter (fun i => (a <=? i) && (i <? a + b)) (zseq s n) = zseq a b.
Proof.
  intros s n a b H1 H2 H3.
  replace n with ((a - s) + (b + (s + n - (a + b)))) by lia.
  rewrite (zseq_app s (a-s)) by lia. rewrite (zseq_app (s+(a-s)) b) by lia.
  rewrite !filter_app. rewrite (filter_none _ _ (zseq s (a-s))), (filter_none _ _ (zseq (s+(a-s)+b) _)).
  - rewrite filter_all, app_nil_r. + cbn [app]. f_equal; lia. + intros x Hx. apply in_zseq in Hx. lia.
  - intros x Hx. apply in_zseq in Hx. lia.
  - intros x Hx. apply in_zseq in Hx. lia.
Qed.

Definition subbox (s w S W : Z -> Z) : Prop :=
  forall d, 0 <= d < 3 -> S d <= s d /\ 0 <= w d /\ s d + w d <= S d + W d.

Lemma filter_box : forall s w S W, subbox s w S W -> filter (in_boxb s w) (box S W) = box s w.
Proof.
  intros s w S W H. destruct (H 0 ltac:(lia)) as (A0 & B0 & C0). destruct (H 1 ltac:(lia)) as (A1 & B1 & C1).
  destruct (H 2 ltac:(lia)) as (A2 & B2 & C2).
  unfold box. rewrite filter_flat_map.
  rewrite <- (filter_zseq (S 2) (W 2) (s 2) (w 2)) by auto.
  rewrite <- flat_map_if. apply flat_map_ext. intros k.
  destruct ((s 2 <=? k) && (k <? s 2 + w 2)) eqn:Ek.
  - rewrite filter_flat_map. rewrite <- (filter_zseq (S 1) (W 1) (s 1) (w 1)) by auto.
    rewrite <- flat_map_if. apply flat_map_ext. intros j.
    destruct ((s 1 <=? j) && (j <? s 1 + w 1)) eqn:Ej.
    + rewrite <- (filter_zseq (S 0) (W 0) (s 0) (w 0)) by auto.
      induction (zseq (S 0) (W 0)) as [|i l IH]; cbn [map filter]; auto.
      unfold in_boxb at 1. rewrite Ej, Ek, !andb_true_r. destruct ((s 0 <=? i) && (i <? s 0 + w 0)); cbn [map]; rewrite IH; reflexivity.
    + apply filter_none. intros x Hx. apply in_map_iff in Hx. destruct Hx as (i & <- & _). unfold in_boxb. rewrite Ej, andb_false_r. reflexivity.
  - apply filter_none. intros x Hx. apply in_flat_map in Hx. destruct Hx as (j & _ & Hx). apply in_map_iff in Hx.
    destruct Hx as (i & <- & _). unfold in_boxb. rewrite Ek, andb_false_r. reflexivity.
Qed.

(** Filtering the enumerated list. *)
Lemma filter_combine_fst : forall (A B : Type) (P : A -> bool) (l : list A) (m : list B), length l = length m ->
  map fst (filter (fun p => P (fst p)) (combine l m)) = filter P l.
Proof.
  induction l as [|a l IH]; intros m H; destruct m as [|b m]; cbn [combine filter map length] in *; try lia; auto.
  cbn [fst]. destruct (P a); cbn [map fst]; rewrite IH by lia; reflexivity.
Qed.

Lemma in_combine_zseq : forall (A : Type) (l : list A) a i s,
  In (a, i) (combine l (zseq s (Z.of_nat (length l)))) -> s <= i < s + Z.of_nat (length l) /\ nth_error l (Z.to_nat (i - s)) = Some a.
Proof.
  induction l as [|x l IH]; intros a i s H; [destruct H|].
  cbn [length] in H. rewrite zseq_cons in H by lia. cbn [combine] in H. destruct H as [H|H].
  - inversion H; subst. split; [cbn [length]; lia|]. replace (Z.to_nat (i - i)) with 0%nat by lia. reflexivity.
  - replace (Z.of_nat (S (length l)) - 1) with (Z.of_nat (length l)) in H by lia.
    apply IH in H. destruct H as [A1 A2]. split; [cbn [length]; lia|].
    replace (Z.to_nat (i - s)) with (S (Z.to_nat (i - (s+1)))) by lia. exact A2.
Qed.
