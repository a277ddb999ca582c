(** Real numbers as knot values. *)
From Coq Require Import Reals Lra.
From Verif Require Import Prelude.
Open Scope R_scope.

Definition Rltb (x y : R) : bool := if Rlt_dec x y then true else false.

Lemma Rltb_true : forall x y, Rltb x y = true <-> x < y.
Proof. intros. unfold Rltb. destruct (Rlt_dec x y); intuition; try discriminate; lra. Qed.
Lemma Rltb_false : forall x y, Rltb x y = false <-> y <= x.
Proof. intros. unfold Rltb. destruct (Rlt_dec x y); intuition; try discriminate; lra. Qed.

Lemma Rltb_irrefl : forall x, Rltb x x = false.
Proof. intros. apply Rltb_false; lra. Qed.
Lemma Rltb_trans : forall x y z, Rltb x y = true -> Rltb y z = true -> Rltb x z = true.
Proof. intros x y z. rewrite !Rltb_true. lra. Qed.
Lemma Rltb_negtrans : forall x y z, Rltb x z = true -> Rltb x y = true \/ Rltb y z = true.
Proof. intros x y z. rewrite !Rltb_true. intros. destruct (Rlt_dec x y); [left|right]; lra. Qed.

Canonical Structure Rord : KnotOrd := Build_KnotOrd R Rltb Rltb_irrefl Rltb_trans Rltb_negtrans.

Lemma klt_R : forall x y : R, @klt Rord x y <-> x < y.
Proof. intros; unfold klt; simpl. apply Rltb_true. Qed.
Lemma kle_R : forall x y : R, @kle Rord x y <-> x <= y.
Proof. intros; unfold kle; simpl. apply Rltb_false. Qed.
Lemma keq_R : forall x y : R, @keq Rord x y <-> x = y.
Proof. intros. rewrite keq_le, !kle_R. split; intros; [lra|split; lra]. Qed.

(** See an equation on [kT Rord] as an equation on [R]. *)
Ltac Rgoal := match goal with |- @eq _ ?x ?y => change (@eq R x y) end.
