(** Common vocabulary: integer ranges, sums, orders on knots, API status codes. *)
From Coq Require Import ZArith List Bool Lia Permutation.
From Coq Require Import ZifyBool ZifyNat.
Import ListNotations.
Open Scope Z_scope.

Ltac Zify.zify_post_hook ::= Z.div_mod_to_equations.

(** [zseq s n] = s, s+1, ..., s+n-1 (empty when n <= 0): the values of a C loop
    [for (i=s; i<s+n; i++)]. *)
Definition zseq (s n : Z) : list Z := map (fun i => s + Z.of_nat i) (seq 0 (Z.to_nat n)).

(** Return status of a PETSc-style routine. *)
Inductive status : Set :=
| Ok                (* 0 *)
| ErrOrder          (* PETSC_ERR_ORDER *)
| ErrRange          (* PETSC_ERR_ARG_OUTOFRANGE *)
| ErrState          (* PETSC_ERR_ARG_WRONGSTATE *)
| ErrArg            (* PETSC_ERR_ARG_WRONG / ARG_INCOMP / SUP ... *)
| ErrFuel.          (* the C loop would not terminate *)

Definition is_ok (s : status) : bool := match s with Ok => true | _ => false end.

(** The comparisons the code makes on knot values: a strict weak order ([kltb x y] is C's
    [x < y]).  Every NaN-free floating point type, Z, Q and R are instances. *)
Record KnotOrd : Type := {
  kT :> Type;
  kltb : kT -> kT -> bool;
  kltb_irrefl : forall x, kltb x x = false;
  kltb_trans : forall x y z, kltb x y = true -> kltb y z = true -> kltb x z = true;
  kltb_negtrans : forall x y z, kltb x z = true -> kltb x y = true \/ kltb y z = true
}.
Arguments kltb {k}.

Definition klt {O : KnotOrd} (x y : O) : Prop := kltb x y = true.
Definition kle {O : KnotOrd} (x y : O) : Prop := kltb y x = false.
(** Equal as far as the comparisons can tell. *)
Definition keq {O : KnotOrd} (x y : O) : Prop := kltb x y = false /\ kltb y x = false.
Definition keqb {O : KnotOrd} (x y : O) : bool := negb (kltb x y) && negb (kltb y x).

Lemma zlt_irrefl : forall x, Z.ltb x x = false. Proof. intros; lia. Qed.
Lemma zlt_trans : forall x y z, Z.ltb x y = true -> Z.ltb y z = true -> Z.ltb x z = true.
Proof. intros; lia. Qed.
Lemma zlt_negtrans : forall x y z, Z.ltb x z = true -> Z.ltb x y = true \/ Z.ltb y z = true.
Proof. intros; lia. Qed.
(** Integer knots, used for executable examples. *)
Canonical Structure Zord : KnotOrd := Build_KnotOrd Z Z.ltb zlt_irrefl zlt_trans zlt_negtrans.

(** Array from a list, used in examples: out of range entries read as [d]. *)
Definition arr {A} (d : A) (l : list A) (i : Z) : A :=
  if i <? 0 then d else nth (Z.to_nat i) l d.

(** Sum of f over the loop s <= i < s+n. *)
Definition zsum (f : Z -> Z) (s n : Z) : Z := fold_right Z.add 0 (map f (zseq s n)).
Definition zprod (l : list Z) : Z := fold_right Z.mul 1 l.

(* ------------------------------------------------------------------ *)
Section OrdLemmas.
  Context {O : KnotOrd}.
  Implicit Types x y z : O.

  Lemma klt_irrefl : forall x, ~ klt x x.
  Proof. intros x H. unfold klt in H. rewrite kltb_irrefl in H. discriminate. Qed.
  Lemma klt_trans : forall x y z, klt x y -> klt y z -> klt x z.
  Proof. unfold klt; eauto using kltb_trans. Qed.
  Lemma kle_refl : forall x, kle x x.
  Proof. intros; apply kltb_irrefl. Qed.
  Lemma kle_trans : forall x y z, kle x y -> kle y z -> kle x z.
  Proof.
    unfold kle; intros x y z H1 H2. destruct (kltb z x) eqn:E; auto.
    destruct (kltb_negtrans _ z y x E); congruence.
  Qed.
  Lemma klt_le : forall x y, klt x y -> kle x y.
  Proof.
    unfold klt, kle; intros x y H. destruct (kltb y x) eqn:E; auto.
    pose proof (kltb_trans _ _ _ _ H E) as HH. rewrite kltb_irrefl in HH. discriminate.
  Qed.
  Lemma klt_le_trans : forall x y z, klt x y -> kle y z -> klt x z.
  Proof.
    unfold klt, kle; intros x y z H1 H2.
    destruct (kltb_negtrans _ x z y H1); congruence.
  Qed.
  Lemma kle_lt_trans : forall x y z, kle x y -> klt y z -> klt x z.
  Proof.
    unfold klt, kle; intros x y z H1 H2.
    destruct (kltb_negtrans _ y x z H2); congruence.
  Qed.
  Lemma klt_not_le : forall x y, klt x y <-> ~ kle y x.
  Proof. unfold klt, kle; intros. destruct (kltb x y); intuition congruence. Qed.
  Lemma kle_not_lt : forall x y, kle x y <-> ~ klt y x.
  Proof. unfold klt, kle; intros. destruct (kltb y x); intuition congruence. Qed.
  Lemma klt_or_le : forall x y, klt x y \/ kle y x.
  Proof. unfold klt, kle; intros. destruct (kltb x y); auto. Qed.
  Lemma keqb_spec : forall x y, keqb x y = true <-> keq x y.
  Proof. unfold keqb, keq; intros. destruct (kltb x y), (kltb y x); simpl; intuition congruence. Qed.
  Lemma keq_le : forall x y, keq x y <-> kle x y /\ kle y x.
  Proof. unfold keq, kle; intuition. Qed.
End OrdLemmas.

(* ------------------------------------------------------------------ *)
Lemma in_zseq : forall s n x, In x (zseq s n) <-> s <= x < s + n.
Proof.
  unfold zseq; intros. rewrite in_map_iff. split.
  - intros (i & <- & Hi). apply in_seq in Hi. lia.
  - intros H. exists (Z.to_nat (x - s)). rewrite in_seq. lia.
Qed.

Lemma NoDup_zseq : forall s n, NoDup (zseq s n).
Proof.
  intros. unfold zseq. apply FinFun.Injective_map_NoDup; [|apply seq_NoDup].
  intros a b; lia.
Qed.

Lemma length_zseq : forall s n, length (zseq s n) = Z.to_nat n.
Proof. intros. unfold zseq. rewrite map_length, seq_length. reflexivity. Qed.

Lemma zseq_nil : forall s n, n <= 0 -> zseq s n = [].
Proof. intros. unfold zseq. replace (Z.to_nat n) with 0%nat by lia. reflexivity. Qed.

Lemma zseq_cons : forall s n, 0 < n -> zseq s n = s :: zseq (s+1) (n-1).
Proof.
  intros. unfold zseq. replace (Z.to_nat n) with (S (Z.to_nat (n-1))) by lia.
  cbn [seq map]. rewrite <- seq_shift, map_map. f_equal; [lia|].
  apply map_ext. intros; lia.
Qed.

Lemma seq_map_add : forall k a, seq a k = map (fun i => (a + i)%nat) (seq 0 k).
Proof. induction k; intros; [reflexivity|]. rewrite !seq_S, map_app, (IHk a). reflexivity. Qed.

Lemma zseq_app : forall s a b, 0 <= a -> 0 <= b -> zseq s (a+b) = zseq s a ++ zseq (s+a) b.
Proof.
  intros. unfold zseq. replace (Z.to_nat (a+b)) with (Z.to_nat a + Z.to_nat b)%nat by lia.
  rewrite seq_app, map_app. f_equal. rewrite seq_map_add, map_map. apply map_ext. intros; lia.
Qed.

Lemma zseq_snoc : forall s n, 0 <= n -> zseq s (n+1) = zseq s n ++ [s+n].
Proof.
  intros. rewrite zseq_app by lia. f_equal. rewrite zseq_cons by lia. rewrite zseq_nil by lia. reflexivity.
Qed.

Lemma zseq_shift : forall s n c, map (fun x => x + c) (zseq s n) = zseq (s+c) n.
Proof. intros. unfold zseq. rewrite map_map. apply map_ext. intros; lia. Qed.

Lemma nth_zseq : forall s n i d, (i < Z.to_nat n)%nat -> nth i (zseq s n) d = s + Z.of_nat i.
Proof.
  intros. unfold zseq. rewrite (nth_indep _ d (s + Z.of_nat 0)) by (rewrite map_length, seq_length; lia).
  rewrite (map_nth (fun i => s + Z.of_nat i)). rewrite seq_nth by lia. lia.
Qed.

#[global] Arguments Z.add : simpl never.
#[global] Arguments Z.sub : simpl never.
#[global] Arguments Z.mul : simpl never.
#[global] Arguments Z.opp : simpl never.
#[global] Arguments Z.div : simpl never.
#[global] Arguments Z.modulo : simpl never.
#[global] Arguments Z.max : simpl never.
#[global] Arguments Z.min : simpl never.
#[global] Arguments Z.of_nat : simpl never.
#[global] Arguments Z.to_nat : simpl never.
#[global] Arguments Z.leb : simpl never.
#[global] Arguments Z.ltb : simpl never.
#[global] Arguments Z.eqb : simpl never.
#[global] Arguments Z.geb : simpl never.
#[global] Arguments Z.gtb : simpl never.
