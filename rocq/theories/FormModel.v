(** Model of the callbacks of an IGA: the setters of src/petigaform.c, the struct _IGAFormOps of include/petiga.h:228-258
    and the places where the evaluation loops look the callbacks up.  Definitions only. *)
From Coq Require Import ZArith List Bool.
From Verif Require Import Prelude.
Import ListNotations.

(** The kinds of callbacks, one per setter (petigaform.c:154-269, the IGAFormSet family, and 388-833, the IGASetForm family). *)
Inductive form_op := Vector | Matrix | System | Function_ | Jacobian | IFunction | IJacobian | I2Function | I2Jacobian
                   | IEFunction | IEJacobian | RHSFunction | RHSJacobian.
(** The context fields of struct _IGAFormOps (include/petiga.h:231-257). *)
Inductive ctx_field := VecCtx | MatCtx | SysCtx | FunCtx | JacCtx | IFunCtx | IJacCtx | IEFunCtx | IEJacCtx | RHSFunCtx | RHSJacCtx.

Definition op_eqb (a b : form_op) : bool :=
  match a, b with
  | Vector, Vector | Matrix, Matrix | System, System | Function_, Function_ | Jacobian, Jacobian | IFunction, IFunction
  | IJacobian, IJacobian | I2Function, I2Function | I2Jacobian, I2Jacobian | IEFunction, IEFunction | IEJacobian, IEJacobian
  | RHSFunction, RHSFunction | RHSJacobian, RHSJacobian => true
  | _, _ => false
  end.
Definition ctx_eqb (a b : ctx_field) : bool :=
  match a, b with
  | VecCtx, VecCtx | MatCtx, MatCtx | SysCtx, SysCtx | FunCtx, FunCtx | JacCtx, JacCtx | IFunCtx, IFunCtx | IJacCtx, IJacCtx
  | IEFunCtx, IEFunCtx | IEJacCtx, IEJacCtx | RHSFunCtx, RHSFunCtx | RHSJacCtx, RHSJacCtx => true
  | _, _ => false
  end.

(** The field each setter stores its context in. *)
Definition set_ctx_field (o : form_op) : ctx_field :=
  match o with
  | Vector => VecCtx          (* petigaform.c:154-161, 388-395 *)
  | Matrix => MatCtx          (* petigaform.c:163-170, 418-425 *)
  | System => SysCtx          (* petigaform.c:172-179, 449-456 *)
  | Function_ => FunCtx       (* petigaform.c:181-188, 480-487 *)
  | Jacobian => JacCtx        (* petigaform.c:190-197, 511-518 *)
  | IFunction => IFunCtx      (* petigaform.c:199-206, 549-556 *)
  | IJacobian => IJacCtx      (* petigaform.c:208-215, 588-595 *)
  | I2Function => IFunCtx     (* petigaform.c:217-224, 629-636 *)
  | I2Jacobian => IJacCtx     (* petigaform.c:226-233, 671-678 *)
  | IEFunction => IEFunCtx    (* petigaform.c:235-242, 712-719 *)
  | IEJacobian => IEJacCtx    (* petigaform.c:244-251, 754-761 *)
  | RHSFunction => RHSFunCtx  (* petigaform.c:253-260, 790-797 *)
  | RHSJacobian => RHSJacCtx  (* petigaform.c:262-269, 826-833 *)
  end.

Section Ops.
  Variables F C : Type.          (* function pointers and contexts *)
  Record form_ops := mk_ops { ops_fun : form_op -> option F; ops_ctx : ctx_field -> option C }.
  (** petigaform.c:36 IGAFormCreate (PetscCalloc1: all pointers NULL); None is NULL. *)
  Definition ops_init : form_ops := mk_ops (fun _ => None) (fun _ => None).
  (** One call of a setter. *)
  Definition ops_set (ops : form_ops) (o : form_op) (f : option F) (c : option C) : form_ops :=
    mk_ops (fun o' => if op_eqb o' o then f else ops_fun ops o')
           (fun k => if ctx_eqb k (set_ctx_field o) then c else ops_ctx ops k).
  (** The field the evaluation loop for each callback takes the context from: petigaksp.c:4-31, petigasnes.c:4-21,
      petigats.c:4-21, 163-180, 338-355, petigats2.c:4-21. *)
  Definition get_ctx_field (o : form_op) : ctx_field :=
    match o with
    | Vector => VecCtx | Matrix => MatCtx | System => SysCtx
    | Function_ => FunCtx | Jacobian => JacCtx
    | IFunction => IFunCtx | IJacobian => IJacCtx
    | IEFunction => IEFunCtx | IEJacobian => IEJacCtx
    | RHSFunction => RHSFunCtx | RHSJacobian => RHSJacCtx
    | I2Function => IFunCtx | I2Jacobian => IJacCtx
    end.
  Definition ops_call (ops : form_ops) (o : form_op) : option F * option C := (ops_fun ops o, ops_ctx ops (get_ctx_field o)).
End Ops.
Arguments mk_ops {F C}. Arguments ops_fun {F C}. Arguments ops_ctx {F C}. Arguments ops_init {F C}. Arguments ops_set {F C}. Arguments ops_call {F C}.

(** Which callback PETSc's solvers end up calling, with which of their vectors.  A call is the callback and the shifts and
    vectors it gets for the derivatives and the state. *)
Section Dispatch.
  Variables V T F C : Type.
  Variable ops : @form_ops F C.
  Inductive form_call := Call (o : form_op) (shifts : list T) (vecs : list V).
  Definition is_set (o : form_op) : bool := match ops_fun ops o with Some _ => true | None => false end.
  (** petigaksp.c:204-217 IGAKSPFormRHS and 219-236 IGAKSPFormOperators *)
  Definition ksp_rhs : list form_call := if negb (is_set System) then [Call Vector [] []] else [].
  Definition ksp_operators : list form_call := if negb (is_set System) then [Call Matrix [] []] else [Call System [] []].
  (** petigats.c:479-504 IGATSFormIFunction (a = 0), 506-536 IGATSFormIJacobian; U0 is the solution at the current step. *)
  Definition ts_ifunction (zero : T) (V_ U U0 : V) : form_call :=
    if is_set IEFunction then Call IEFunction [zero] [V_; U; U0] else Call IFunction [zero] [V_; U].
  Definition ts_ijacobian (shift : T) (V_ U U0 : V) : form_call :=
    if is_set IEFunction then Call IEJacobian [shift] [V_; U; U0] else Call IJacobian [shift] [V_; U].
  (** petigats2.c:177-199 IGATSFormI2Function, 201-228 IGATSFormI2Jacobian *)
  Definition ts_i2function (zero : T) (A V_ U : V) : form_call :=
    if is_set I2Function then Call I2Function [zero; zero] [A; V_; U] else Call IFunction [zero] [A; U].
  Definition ts_i2jacobian (shiftA shiftV : T) (A V_ U : V) : form_call :=
    if is_set I2Function then Call I2Jacobian [shiftA; shiftV] [A; V_; U] else Call IJacobian [shiftA] [A; U].
End Dispatch.
