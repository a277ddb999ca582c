(** Model of the assembly drivers: element loop / form loop / quadrature loop around the user's callback, with
    the boundary treatment each driver applies (src/petigaksp.c, src/petigasnes.c, src/petigats.c,
    src/petigats2.c, src/petigapoint.c).  Definitions only. *)
From Coq Require Import ZArith List Bool Reals.
From Verif Require Import Prelude Box AxisModel AxisInitModel SetupModel GridModel ElemModel ElemSpec BCModel.
Import ListNotations.
Open Scope Z_scope.

(** * Nested iteration *)
(** The loops every driver is made of: for each element, all forms.  The iterator state is threaded through:
    IGAElementNextForm works on the same IGAElement as IGANextElement. *)
Fixpoint nested_loop (fuel ffuel : nat) (visit : Z -> Z -> bool) (e : elem) : option (list (triple * list form_visit) * elem) :=
  match fuel with
  | 0%nat => None
  | S f =>
      match next_element e with
      | (true, e1) =>
          match form_loop ffuel visit e1 with
          | Some (vs, e2) =>
              match nested_loop f ffuel visit e2 with
              | Some (l, e3) => Some ((el_triple e1, vs) :: l, e3)
              | None => None
              end
          | None => None
          end
      | (false, e1) => Some ([], e1)
      end
  end.

(** A C array holding the list [l] (0 elsewhere). *)
Definition arr (l : list R) : Z -> R := fun i => if i <? 0 then 0%R else nth (Z.to_nat i) l 0%R.
(** A work array as handed out by IGAElementGetWorkVec/Mat and IGAPointGetWorkVec/Mat: zeros
    (src/petigaelem.c:1037-1072, src/petigapoint.c:414-449; that they are and do not alias is C74). *)
Definition work : Z -> R := fun _ => 0%R.

(** src/petigapoint.c:451-464 IGAPointAddArray; [JW] = detJac[0]*weight[0] *)
Definition point_add_array (n : Z) (JW : R) (a A : Z -> R) : Z -> R :=
  loop n (fun i A => upd A i (A i + a i * JW)%R) A.

Section Kernels.
  Variable dim dof : Z.
  Variable nen : Z -> Z.                       (* nodes per direction; neq = nen (quadrature) *)
  Variable nel : Z -> Z.                       (* element->sizes *)
  Variable periodic : Z -> bool.
  Variable visit : Z -> Z -> bool.             (* form->visit *)
  Variable value load : Z -> Z -> list (Z * R). (* form->value, form->load *)
  Variable area : triple -> Z -> Z -> R.       (* face areas *)
  Variable fixtable : bool.                    (* iga->fixtable; its vector is then the first input *)
  Variable npts : triple -> form_visit -> Z.   (* quadrature points of a form visit *)
  Variable JW : triple -> form_visit -> Z -> R. (* detJac*weight *)

  (** The forms of element e: the loop of IGAElementNextForm from the state IGANextElement leaves
      (only dim, sizes, ID, boundary_id and atboundary are read). *)
  Definition elem_forms (e : triple) : list form_visit :=
    match form_loop (Z.to_nat (2 * dim + 3)) visit (mk_elem dim (fun _ => 0) (fun _ => 1) nel 0 0 (coord e) (-1) false) with
    | Some (l, _) => l | None => []
    end.
  (** The points of a form visit: IGAElementBeginPoint + IGAElementNextPoint (src/petigaelem.c:458-592). *)
  Definition visit_points (e : triple) (f : form_visit) : list Z :=
    match point_loop (Z.to_nat (npts e f + 1)) (npts e f) (-1, 0) with Some (l, _) => l | None => [] end.

  (** Form loop and quadrature loop of one element; [cb f q a] is what the user's callback leaves in the
      zeroed point array [a]; m entries (neq*dof for vectors, neq*dof*nen*dof for matrices). *)
  Definition accumulate (m : Z) (e : triple) (cb : form_visit -> Z -> (Z -> R) -> Z -> R) : Z -> R :=
    fold_left (fun A f => fold_left (fun A q => point_add_array m (JW e f q) (cb f q work) A) (visit_points e f) A)
              (elem_forms e) work.
  Definition nvec : Z := vol nen * dof.
  Definition nmat : Z := vol nen * dof * (vol nen * dof).

  (** The fix table's values are read as table[mapping[a]*dof + c]: the element's copy of that vector. *)
  Definition table_of (ins : list (list R)) : option (Z -> R) :=
    if fixtable then option_map arr (hd_error ins) else None.
  Definition inputs_of (ins : list (list R)) : list (list R) := if fixtable then tl ins else ins.
  (** src/petigaelem.c:1263-1283 IGAElementBuildFix: (fix list, flux list) of element e *)
  Definition elem_fix (e : triple) (ins : list (list R)) : list (Z * R) * list (Z * R) :=
    build_fix dof (table_of ins) (fun a => a) nen value load (area e) dim periodic nel (coord e).
  Definition input (k : nat) (ins : list (list R)) : Z -> R := arr (nth k (inputs_of ins) []).

  Definition cb0 := triple -> form_visit -> Z -> (Z -> R) -> Z -> R.
  Definition cb1 := triple -> form_visit -> Z -> (Z -> R) -> (Z -> R) -> Z -> R.

  (** src/petigaksp.c:33-77 IGAComputeVector: no boundary treatment *)
  Definition k_vector (Vector : cb0) (e : triple) (ins : list (list R)) : Z -> R :=
    accumulate nvec e (fun f q F => Vector e f q F).
  (** src/petigaksp.c:79-123 IGAComputeMatrix: no boundary treatment *)
  Definition k_matrix (Matrix : cb0) (e : triple) (ins : list (list R)) : Z -> R :=
    accumulate nmat e (fun f q K => Matrix e f q K).
  (** src/petigaksp.c:151-202 IGAComputeSystem; the callback fills K and F *)
  Definition k_system (SysK SysF : cb0) (e : triple) (ins : list (list R)) : (Z -> R) * (Z -> R) :=
    let A := accumulate nmat e (fun f q K => SysK e f q K) in
    let B := accumulate nvec e (fun f q F => SysF e f q F) in
    fix_system nvec (fst (elem_fix e ins)) (snd (elem_fix e ins)) A B.
  (** src/petigasnes.c:23-80 IGAComputeFunction; inputs U *)
  Definition k_function (Function : cb1) (e : triple) (ins : list (list R)) : Z -> R :=
    let '(ufix, U) := fix_values (fst (elem_fix e ins)) (input 0 ins) in
    let F := accumulate nvec e (fun f q R => Function e f q U R) in
    fix_function (fst (elem_fix e ins)) (snd (elem_fix e ins)) ufix F.
  (** src/petigasnes.c:82-139 IGAComputeJacobian; inputs U *)
  Definition k_jacobian (Jacobian : cb1) (e : triple) (ins : list (list R)) : Z -> R :=
    let '(ufix, U) := fix_values (fst (elem_fix e ins)) (input 0 ins) in
    let J := accumulate nmat e (fun f q K => Jacobian e f q U K) in
    fix_jacobian nvec (fst (elem_fix e ins)) J.
  (** src/petigats.c:23-90 IGAComputeIFunction; inputs V, U *)
  Definition k_ifunction (IFunction : triple -> form_visit -> Z -> R -> (Z -> R) -> R -> (Z -> R) -> (Z -> R) -> Z -> R)
      (a t : R) (e : triple) (ins : list (list R)) : Z -> R :=
    let V := del_values (fst (elem_fix e ins)) (input 0 ins) in
    let '(ufix, U) := fix_values (fst (elem_fix e ins)) (input 1 ins) in
    let F := accumulate nvec e (fun f q R => IFunction e f q a V t U R) in
    fix_function (fst (elem_fix e ins)) (snd (elem_fix e ins)) ufix F.
  (** src/petigats.c:92-159 IGAComputeIJacobian; inputs V, U *)
  Definition k_ijacobian (IJacobian : triple -> form_visit -> Z -> R -> (Z -> R) -> R -> (Z -> R) -> (Z -> R) -> Z -> R)
      (a t : R) (e : triple) (ins : list (list R)) : Z -> R :=
    let V := del_values (fst (elem_fix e ins)) (input 0 ins) in
    let '(ufix, U) := fix_values (fst (elem_fix e ins)) (input 1 ins) in
    let J := accumulate nmat e (fun f q K => IJacobian e f q a V t U K) in
    fix_jacobian nvec (fst (elem_fix e ins)) J.
  (** src/petigats.c:182-257 IGAComputeIEFunction; inputs V, U, U0.  Both FixValues calls write element->ufix;
      the second one, on U, stands. *)
  Definition k_iefunction (IEFunction : triple -> form_visit -> Z -> R -> (Z -> R) -> R -> (Z -> R) -> R -> (Z -> R) -> (Z -> R) -> Z -> R)
      (a t t0 : R) (e : triple) (ins : list (list R)) : Z -> R :=
    let V := del_values (fst (elem_fix e ins)) (input 0 ins) in
    let '(ufix, U0) := fix_values (fst (elem_fix e ins)) (input 2 ins) in
    let '(ufix, U) := fix_values (fst (elem_fix e ins)) (input 1 ins) in
    let F := accumulate nvec e (fun f q R => IEFunction e f q a V t U t0 U0 R) in
    fix_function (fst (elem_fix e ins)) (snd (elem_fix e ins)) ufix F.
  (** src/petigats.c:259-334 IGAComputeIEJacobian; inputs V, U, U0 *)
  Definition k_iejacobian (IEJacobian : triple -> form_visit -> Z -> R -> (Z -> R) -> R -> (Z -> R) -> R -> (Z -> R) -> (Z -> R) -> Z -> R)
      (a t t0 : R) (e : triple) (ins : list (list R)) : Z -> R :=
    let V := del_values (fst (elem_fix e ins)) (input 0 ins) in
    let '(ufix, U0) := fix_values (fst (elem_fix e ins)) (input 2 ins) in
    let '(ufix, U) := fix_values (fst (elem_fix e ins)) (input 1 ins) in
    let J := accumulate nmat e (fun f q K => IEJacobian e f q a V t U t0 U0 K) in
    fix_jacobian nvec (fst (elem_fix e ins)) J.
  (** src/petigats.c:357-416 IGAComputeRHSFunction; inputs U *)
  Definition k_rhsfunction (RHSFunction : triple -> form_visit -> Z -> R -> (Z -> R) -> (Z -> R) -> Z -> R)
      (t : R) (e : triple) (ins : list (list R)) : Z -> R :=
    let '(ufix, U) := fix_values (fst (elem_fix e ins)) (input 0 ins) in
    let F := accumulate nvec e (fun f q R => RHSFunction e f q t U R) in
    fix_function (fst (elem_fix e ins)) (snd (elem_fix e ins)) ufix F.
  (** src/petigats.c:418-477 IGAComputeRHSJacobian; inputs U *)
  Definition k_rhsjacobian (RHSJacobian : triple -> form_visit -> Z -> R -> (Z -> R) -> (Z -> R) -> Z -> R)
      (t : R) (e : triple) (ins : list (list R)) : Z -> R :=
    let '(ufix, U) := fix_values (fst (elem_fix e ins)) (input 0 ins) in
    let J := accumulate nmat e (fun f q K => RHSJacobian e f q t U K) in
    fix_jacobian nvec (fst (elem_fix e ins)) J.
  (** src/petigats2.c:23-97 IGAComputeI2Function; inputs A, V, U *)
  Definition k_i2function (I2Function : triple -> form_visit -> Z -> R -> (Z -> R) -> R -> (Z -> R) -> R -> (Z -> R) -> (Z -> R) -> Z -> R)
      (a v t : R) (e : triple) (ins : list (list R)) : Z -> R :=
    let A := del_values (fst (elem_fix e ins)) (input 0 ins) in
    let V := del_values (fst (elem_fix e ins)) (input 1 ins) in
    let '(ufix, U) := fix_values (fst (elem_fix e ins)) (input 2 ins) in
    let F := accumulate nvec e (fun f q R => I2Function e f q a A v V t U R) in
    fix_function (fst (elem_fix e ins)) (snd (elem_fix e ins)) ufix F.
  (** src/petigats2.c:99-175 IGAComputeI2Jacobian; inputs A, V, U *)
  Definition k_i2jacobian (I2Jacobian : triple -> form_visit -> Z -> R -> (Z -> R) -> R -> (Z -> R) -> R -> (Z -> R) -> (Z -> R) -> Z -> R)
      (a v t : R) (e : triple) (ins : list (list R)) : Z -> R :=
    let A := del_values (fst (elem_fix e ins)) (input 0 ins) in
    let V := del_values (fst (elem_fix e ins)) (input 1 ins) in
    let '(ufix, U) := fix_values (fst (elem_fix e ins)) (input 2 ins) in
    let J := accumulate nmat e (fun f q K => I2Jacobian e f q a A v V t U K) in
    fix_jacobian nvec (fst (elem_fix e ins)) J.
End Kernels.
