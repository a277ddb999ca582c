(** Property theorems about callbacks: C77, C78. *)
From Coq Require Import ZArith List Bool Lia.
From Verif Require Import Prelude FormModel.
Import ListNotations.
Open Scope nat_scope.

(** A history of setter calls. *)
Definition set_call (F C : Type) := (form_op * option F * option C)%type.
Definition run {F C} (h : list (set_call F C)) : form_ops F C := fold_left (fun ops c => let '(o, f, x) := c in ops_set ops o f x) h ops_init.
(** What the user expects: the function and context of the last call of the setter of o. *)
Fixpoint last_set {F C} (o : form_op) (h : list (set_call F C)) (r : option F * option C) : option F * option C :=
  match h with
  | [] => r
  | (o', f, x) :: h' => last_set o h' (if op_eqb o o' then (f, x) else r)
  end.
(** Setters of first and second order callbacks of the same kind. *)
Definition rival (o o' : form_op) : bool :=
  match o, o' with
  | IFunction, I2Function | I2Function, IFunction | IJacobian, I2Jacobian | I2Jacobian, IJacobian => true
  | _, _ => false
  end.

Lemma op_eqb_eq a b : op_eqb a b = true <-> a = b.
Proof. split; [destruct a, b; cbn; congruence|intros ->; destruct b; reflexivity]. Qed.

(** The function called is always the one set last. *)
Theorem C77_function_is_last_set : forall F C (h : list (set_call F C)) o, fst (ops_call (run h) o) = fst (last_set o h (None, None)).
Proof.
  intros F C h o. unfold run.
  assert (G : forall (ops : @form_ops F C) r, ops_fun ops o = fst r ->
            fst (ops_call (fold_left (fun ops c => let '(o, f, x) := c in ops_set ops o f x) h ops) o) = fst (last_set o h r)).
  { induction h as [|((o', f), x) h IH]; intros ops r E; cbn [fold_left last_set]; [exact E|].
    apply IH. cbn [ops_set ops_fun]. destruct (op_eqb o o'); [reflexivity|exact E]. }
  apply G. reflexivity.
Qed.
Print Assumptions C77_function_is_last_set.

(** The context handed to it is the one set with it, as long as the first and second order variants are not both set. *)
Theorem C77_own_context_partial : forall F C (h : list (set_call F C)) o,
  (forall o' f x, In (o', f, x) h -> rival o o' = false) -> ops_call (run h) o = last_set o h (None, None).
Proof.
  intros F C h o H. unfold run.
  assert (G : forall (ops : @form_ops F C) r, ops_call ops o = r ->
            ops_call (fold_left (fun ops c => let '(o, f, x) := c in ops_set ops o f x) h ops) o = last_set o h r).
  { induction h as [|((o', f), x) h IH]; intros ops r E; cbn [fold_left last_set]; [exact E|].
    apply IH; [intros; eapply H; right; eassumption|].
    specialize (H o' f x ltac:(left; reflexivity)). subst r. unfold ops_call. cbn [ops_set ops_fun ops_ctx].
    destruct o, o'; try discriminate H; reflexivity. }
  apply G. reflexivity.
Qed.
Print Assumptions C77_own_context_partial.

(** With both set, the callback set first gets the context of the other one. *)
Theorem C77_own_context_refuted : exists (h : list (set_call nat nat)) o,
  snd (ops_call (run h) o) <> snd (last_set o h (None, None)) /\ fst (ops_call (run h) o) = fst (last_set o h (None, None)) /\
  fst (ops_call (run h) o) <> None.
Proof.
  exists [(IFunction, Some 1, Some 10); (I2Function, Some 2, Some 20)], IFunction. cbn. split; [discriminate|]. split; [reflexivity|discriminate].
Qed.
Print Assumptions C77_own_context_refuted.

Example C77_example :
  let h := [(IFunction, Some 1, Some 10); (IJacobian, Some 3, Some 30); (IFunction, Some 2, Some 20); (System, Some 5, None)] in
  (forall o' f x, In (o', f, x) h -> rival IFunction o' = false) /\ ops_call (run h) IFunction = (Some 2, Some 20) /\
  ops_call (run h) System = (Some 5, None).
Proof.
  cbn. split; [|split; reflexivity].
  intros o' f x [E|[E|[E|[E|[]]]]]; injection E as <- _ _; reflexivity.
Qed.

(** What a callback is documented to receive (petigaform.c:526-832): the state last, before it its first derivative,
    before that its second derivative; the IE callbacks get the state at the start of the step after the state. *)
Definition documented {V} (o : form_op) (A V_ U U0 : V) : list V :=
  match o with
  | IFunction | IJacobian => [V_; U]
  | I2Function | I2Jacobian => [A; V_; U]
  | IEFunction | IEJacobian => [V_; U; U0]
  | RHSFunction | RHSJacobian | Function_ | Jacobian => [U]
  | Vector | Matrix | System => []
  end.
(** The factor of the derivative with respect to each of these vectors in the Jacobian: the state has factor one. *)
Definition jacobian_of (o : form_op) : form_op :=
  match o with IFunction => IJacobian | I2Function => I2Jacobian | IEFunction => IEJacobian | o => o end.

(** First order time stepping: residual and Jacobian come from the same family of callbacks and get the documented
    vectors, the Jacobian with the shift of the first derivative. *)
Theorem C78_first_order : forall V T F C (ops : @form_ops F C) (zero shift : T) (A V_ U U0 : V),
  exists o, ts_ifunction V T F C ops zero V_ U U0 = Call V T o [zero] (documented o A V_ U U0) /\
            ts_ijacobian V T F C ops shift V_ U U0 = Call V T (jacobian_of o) [shift] (documented (jacobian_of o) A V_ U U0).
Proof.
  intros. unfold ts_ifunction, ts_ijacobian. destruct (is_set F C ops IEFunction); [exists IEFunction|exists IFunction]; split; reflexivity.
Qed.
Print Assumptions C78_first_order.

(** Second order time stepping with a second order residual. *)
Theorem C78_second_order_partial : forall V T F C (ops : @form_ops F C) (zero shiftA shiftV : T) (A V_ U U0 : V),
  ops_fun ops I2Function <> None ->
  ts_i2function V T F C ops zero A V_ U = Call V T I2Function [zero; zero] (documented I2Function A V_ U U0) /\
  ts_i2jacobian V T F C ops shiftA shiftV A V_ U = Call V T I2Jacobian [shiftA; shiftV] (documented I2Jacobian A V_ U U0).
Proof.
  intros V T F C ops zero shiftA shiftV A V_ U U0 H. unfold ts_i2function, ts_i2jacobian, is_set.
  destruct (ops_fun ops I2Function); [split; reflexivity|congruence].
Qed.
Print Assumptions C78_second_order_partial.

(** Second order time stepping with only a first order residual set: the residual is called with the second derivative in
    the place of the first. *)
Theorem C78_second_order_refuted : exists (h : list (set_call nat nat)) (zero A V_ U U0 : nat),
  let ops := run h in
  exists o vecs, ts_i2function nat nat nat nat ops zero A V_ U = Call nat nat o [zero] vecs /\ ops_fun ops o <> None /\
    vecs <> documented o A V_ U U0.
Proof.
  exists [(IFunction, Some 1, None)], 0, 7, 8, 9, 6. exists IFunction, [7; 9]. split; [reflexivity|]. split; [discriminate|]. cbn. discriminate.
Qed.
Print Assumptions C78_second_order_refuted.

Example C78_example :
  ts_i2function nat nat nat nat (run [(I2Function, Some 1, Some 2)]) 0 7 8 9 = Call nat nat I2Function [0; 0] [7; 8; 9] /\
  ts_ifunction nat nat nat nat (run [(IEFunction, Some 1, Some 2); (IFunction, Some 3, None)]) 0 8 9 6 = Call nat nat IEFunction [0] [8; 9; 6].
Proof. split; reflexivity. Qed.
