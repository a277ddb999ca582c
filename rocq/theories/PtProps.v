(** C70: what a point hands out. *)
From Coq Require Import ZArith List Lia Bool.
From Verif Require Import PtModel.
Import ListNotations.
Local Open Scope Z_scope.

(** ** Specification.  Shape of every member at one point, include/petiga.h:664-695. *)
Definition member_size (nen dim nsd : Z) (f : field) : Z :=
  match f with
  | FWeight | FDetJac | FDetX | FDetS => 1
  | FPoint => dim | FNormal => nsd
  | FBasis k => nen*dim^k | FShape k => nen*nsd^k | FMapU k => dim*nsd^k | FMapX k => nsd*dim^k
  end.
(** Scalars stored for one point in a buffer (the tabulation routines write them point after point). *)
Definition point_size (nen dim nsd : Z) (b : buffer) : Z :=
  match b with
  | BWeight | BDetJac | BDetX | BDetS => 1
  | BNormal => nsd
  | BBasis k => nen*dim^k | BShape k => nen*nsd^k | BMapU k => dim*nsd^k | BMapX k => nsd*dim^k
  end.
(** The tabulated quantity a member stands for: without a geometry physical and parametric quantities coincide. *)
Definition quantity (geometry : bool) (f : field) : buffer :=
  match f with
  | FWeight => BWeight | FDetJac => BDetJac | FPoint => BMapU 0 | FNormal => BNormal
  | FBasis k => BBasis k | FMapU k => BMapU k | FDetX => BDetX | FDetS => BDetS
  | FShape k => if geometry then BShape k else BBasis k
  | FMapX k => if geometry then BMapX k else BMapU k
  end.
Definition valid_member (f : field) : Prop :=
  match f with FBasis k | FShape k | FMapU k | FMapX k => 0 <= k <= 4 | _ => True end.

Lemma pw_pow d k : 0 <= k <= 4 -> pw d k = d^k.
Proof.
  intros H. assert (C : k = 0 \/ k = 1 \/ k = 2 \/ k = 3 \/ k = 4) by lia.
  unfold pw. destruct C as [-> | [-> | [-> | [-> | ->]]]]; cbn [Z.eqb Pos.eqb Z.pow Z.pow_pos Pos.iter]; try (change (4 =? 0) with false; cbv iota); cbv -[Z.mul]; ring.
Qed.
Lemma loop_state count nen dim nsd geometry st : p_index st = -1 -> forall n, Z.of_nat n + 1 <= count ->
  point_loop (S n) count nen dim nsd geometry st =
  (repeat true (S n), mk_pstate (Z.of_nat n) (snd (point_loop (S n) count nen dim nsd geometry st)).(p_ptr)) /\
  forall f, p_ptr (snd (point_loop (S n) count nen dim nsd geometry st)) f = (start_ptr geometry dim nsd f, Z.of_nat n * advance nen dim nsd f).
Proof.
  intros I n. induction n as [|n IH]; intros H.
  - cbn [point_loop]. unfold next_point. rewrite I. cbn. split; [reflexivity|]. intros f. reflexivity.
  - destruct IH as [E P]; [lia|]. change (point_loop (S (S n)) count nen dim nsd geometry st) with
      (let '(bs, st1) := point_loop (S n) count nen dim nsd geometry st in
       let '(b, st2) := next_point count nen dim nsd geometry st1 in (bs ++ [b], st2)).
    rewrite E. unfold next_point. cbn [p_index p_ptr]. replace (Z.of_nat n + 1 =? 0) with false by lia. replace (Z.of_nat n + 1 >=? count) with false by lia.
    cbn [snd p_ptr]. split.
    + f_equal; [|f_equal; lia]. change [true] with (repeat true 1). rewrite <- repeat_app. f_equal. lia.
    + intros f. rewrite P. cbn [fst snd]. f_equal. lia.
Qed.

(** C70: the loop visits exactly the [count] points and at each of them every member points at that
    point's data, wholly inside its buffer — unless the shape functions of a manifold (a geometry with
    more space than parameter dimensions) are asked for. *)
Theorem C70_point_members :
  forall count nqp nen dim nsd geometry st,
  1 <= count <= nqp -> 1 <= nen -> 1 <= dim <= nsd -> (geometry = false -> nsd = dim) ->
  let run := fun n => point_loop n count nen dim nsd geometry (begin_point st) in
  (forall q, 0 <= q < count ->
     let st' := snd (run (S (Z.to_nat q))) in
     fst (run (S (Z.to_nat q))) = repeat true (S (Z.to_nat q)) /\ p_index st' = q /\
     forall f, valid_member f -> ((exists k, f = FShape k) -> geometry = true -> dim = nsd) ->
       let (b, off) := p_ptr st' f in
       b = quantity geometry f /\ off = q * point_size nen dim nsd b /\ member_size nen dim nsd f = point_size nen dim nsd b /\
       0 <= off /\ off + member_size nen dim nsd f <= alloc_size nqp nen dim nsd b) /\
  (let r := run (S (Z.to_nat count)) in
   fst r = repeat true (Z.to_nat count) ++ [false] /\ p_index (snd r) = -1 /\ fst (end_point (snd r)) = true).
Proof.
  intros count nqp nen dim nsd geometry st Hc Hn Hd Hg run. split.
  - intros q Hq st'. destruct (loop_state count nen dim nsd geometry (begin_point st) eq_refl (Z.to_nat q)) as [E P]; [lia|].
    unfold st', run. split; [rewrite E; reflexivity|]. split; [rewrite E; cbn [snd p_index]; lia|].
    intros f Vf Hf. rewrite P. rewrite Z2Nat.id by lia.
    assert (Q : start_ptr geometry dim nsd f = quantity geometry f).
    { destruct f; try reflexivity. cbn. destruct geometry; [|reflexivity]. rewrite (Hf (ex_intro _ k eq_refl) eq_refl), Z.eqb_refl. reflexivity. }
    assert (A : advance nen dim nsd f = member_size nen dim nsd f).
    { destruct f; cbn in Vf |- *; rewrite ?pw_pow by lia; reflexivity. }
    assert (M : member_size nen dim nsd f = point_size nen dim nsd (quantity geometry f)).
    { destruct f; cbn; try lia; destruct geometry; try reflexivity; rewrite (Hg eq_refl); reflexivity. }
    assert (C : alloc_size nqp nen dim nsd (quantity geometry f) = nqp * member_size nen dim nsd f).
    { rewrite M. destruct f; cbn in Vf |- *; try lia; try destruct geometry; cbn; rewrite ?pw_pow by lia; try ring; rewrite ?Z.pow_0_r; ring. }
    assert (G : 0 < member_size nen dim nsd f).
    { destruct f; cbn in Vf |- *; try lia; apply Z.mul_pos_pos; try lia; apply Z.pow_pos_nonneg; lia. }
    split; [auto|]. rewrite Q, A. split; [rewrite M; reflexivity|]. split; [auto|]. rewrite C. generalize dependent (member_size nen dim nsd f). intros s _ _ _ Hs. split; nia.
  - destruct (loop_state count nen dim nsd geometry (begin_point st) eq_refl (Z.to_nat count - 1)) as [E P]; [lia|].
    replace (S (Z.to_nat count - 1)) with (Z.to_nat count) in * by lia.
    unfold run. change (point_loop (S (Z.to_nat count)) count nen dim nsd geometry (begin_point st)) with
      (let '(bs, st1) := point_loop (Z.to_nat count) count nen dim nsd geometry (begin_point st) in
       let '(b, st2) := next_point count nen dim nsd geometry st1 in (bs ++ [b], st2)).
    rewrite E. unfold next_point. cbn [p_index p_ptr]. replace (Z.of_nat (Z.to_nat count - 1) + 1) with count by lia. replace (count =? 0) with false by lia. replace (count >=? count) with true by lia.
    cbn. auto.
Qed.
Print Assumptions C70_point_members.

(** Leaving the loop early is reported and the index is reset. *)
Theorem C70_early_exit :
  forall count nen dim nsd geometry st q, 0 <= q < count ->
  let r := end_point (snd (point_loop (S (Z.to_nat q)) count nen dim nsd geometry (begin_point st))) in
  fst r = false /\ p_index (snd r) = -1.
Proof.
  intros count nen dim nsd geometry st q Hq. destruct (loop_state count nen dim nsd geometry (begin_point st) eq_refl (Z.to_nat q)) as [E _]; [lia|].
  rewrite E. cbn [snd end_point p_index fst]. split; [|reflexivity]. unfold end_point. cbn [p_index fst]. rewrite Z2Nat.id by lia. apply Z.eqb_neq. lia.
Qed.
Print Assumptions C70_early_exit.

(** C70: on a surface in space the member for shape-function gradients walks the buffer of the
    parametric gradients with the stride of the spatial ones: at the second point it is not at
    that point's data, and at later points it is outside the buffer. *)
Theorem C70_manifold_shape_refuted :
  exists count nqp nen dim nsd, 1 <= count <= nqp /\ 1 <= nen /\ 1 <= dim <= nsd /\
  forall st, exists q1 q2, 0 <= q1 < count /\ 0 <= q2 < count /\
  let at_ := fun q => p_ptr (snd (point_loop (S (Z.to_nat q)) count nen dim nsd true (begin_point st))) (FShape 1) in
  fst (at_ q1) = BBasis 1 /\ snd (at_ q1) <> q1 * point_size nen dim nsd (BBasis 1) /\
  fst (at_ q2) = BBasis 1 /\ alloc_size nqp nen dim nsd (BBasis 1) <= snd (at_ q2).
Proof.
  exists 9, 9, 9, 2, 3. split; [lia|split; [lia|split; [lia|]]]. intros st. exists 1, 8. split; [lia|split; [lia|]]. split; [reflexivity|]. split; [vm_compute; discriminate|]. split; [reflexivity|vm_compute; discriminate].
Qed.
Print Assumptions C70_manifold_shape_refuted.

(** The general form: for every manifold and every point after the first. *)
Theorem C70_manifold_offset_wrong :
  forall count nen dim nsd st q k, 0 <= q < count -> 1 <= nen -> 1 <= dim < nsd -> 1 <= k <= 4 ->
  let '(b, off) := p_ptr (snd (point_loop (S (Z.to_nat q)) count nen dim nsd true (begin_point st))) (FShape k) in
  b = BBasis k /\ (off = q * point_size nen dim nsd b <-> q = 0).
Proof.
  intros count nen dim nsd st q k Hq Hn Hd Hk. destruct (loop_state count nen dim nsd true (begin_point st) eq_refl (Z.to_nat q)) as [_ P]; [lia|].
  rewrite P, Z2Nat.id by lia. cbn [start_ptr advance]. replace (dim =? nsd) with false by lia. rewrite andb_false_r. split; [reflexivity|]. cbn [point_size]. rewrite pw_pow by lia.
  assert (L : dim^k < nsd^k) by (apply Z.pow_lt_mono_l; lia). split; [|intros ->; reflexivity]. intros E.
  assert (F : q * (nen * (nsd^k - dim^k)) = 0) by lia. apply Z.mul_eq_0 in F. destruct F as [F | F]; [auto|]. apply Z.mul_eq_0 in F. lia.
Qed.
Print Assumptions C70_manifold_offset_wrong.

(** A case meeting the hypotheses of C70: 3 x 3 points of a mapped biquadratic element. *)
Example ex_points : exists count nqp nen dim nsd, 1 <= count <= nqp /\ 1 <= nen /\ 1 <= dim <= nsd /\ valid_member (FShape 2) /\
  forall st, p_ptr (snd (point_loop 5 count nen dim nsd true (begin_point st))) (FShape 2) = (BShape 2, 144).
Proof. exists 9, 9, 9, 2, 2. cbn. repeat split; lia. Qed.
