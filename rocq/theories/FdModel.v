(** Model of src/petigafdjac.c: Jacobians of point residuals by finite differences.  Definitions only. *)
From Coq Require Import ZArith List Bool Reals.
From Verif Require Import Prelude AxisInitModel.
Import ListNotations.
Open Scope Z_scope.

(** src/petigafdjac.c:3-11 DeltaWP; [sqrteps] is PETSC_SQRT_MACHINE_EPSILON; scalars are real. *)
Definition delta_wp (sqrteps : R) (N : Z) (U : Z -> R) : R :=
  let normU := fold_left (fun s i => (s + U i * U i)%R) (zseq 0 N) 0%R in
  (sqrteps * sqrt (1 + sqrt normU))%R.

(** A residual routine: the values of its array arguments and the previous contents of the output array give the new
    contents.  (Return codes of the user's routine are not modelled.) *)
Definition residual := list (Z -> R) -> (Z -> R) -> (Z -> R).

Section FD.
  Variables M N : Z.
  Variable Fun : residual.
  Variable F : Z -> R.
  Variable h : R.

  (** The arrays during the loop: the perturbed arguments, G and J. *)
  Record fd_state := mk_fd { fd_args : list (Z -> R); fd_G : Z -> R; fd_J : Z -> R }.

  (** The body of the loop over j: every argument array with factor c has c*h added to entry j (c = 1 for U: X[j] =
      Uj + h), the residual is evaluated into G, column j of J is written, the saved entries are put back. *)
  Definition fd_body (factors : list R) (st : fd_state) (j : Z) : fd_state :=
    let saved := map (fun X : Z -> R => X j) (fd_args st) in
    let pert := map (fun p => let '(X, c, x) := p in upd X j (x + h * c)%R) (combine (combine (fd_args st) factors) saved) in
    let G := Fun pert (fd_G st) in
    let J := fold_left (fun J i => upd J (i*N + j) ((G i - F i) / h)%R) (zseq 0 M) (fd_J st) in
    let back := map (fun p => let '(X, x) := p in upd X j x) (combine pert saved) in
    mk_fd back G J.

  (** All columns. *)
  Definition fd_loop (factors : list R) (args : list (Z -> R)) (G0 J0 : Z -> R) : fd_state :=
    fold_left (fd_body factors) (zseq 0 N) (mk_fd args G0 J0).
End FD.

Section Routines.
  Variable sqrteps : R.
  Variables M N : Z.
  (** The user's residual gets its arrays in the order of its argument list; J0 is J on entry; F and G are work
      vectors, zero on entry (IGAPointGetWorkVec). *)
  Definition zero_array : Z -> R := fun _ => 0%R.

  (** src/petigafdjac.c:13-40 IGAFormJacobianFD *)
  Definition jacobian_fd (Fun : (Z -> R) -> (Z -> R) -> (Z -> R)) (U J0 : Z -> R) : fd_state :=
    let f : residual := fun l G => Fun (nth 0 l zero_array) G in
    let h := delta_wp sqrteps N U in
    let F := Fun U zero_array in
    fd_loop M N f F h [1%R] [U] zero_array J0.

  (** src/petigafdjac.c:42-74 IGAFormIJacobianFD: residual(s,V,t,U) *)
  Definition ijacobian_fd (Fun : R -> (Z -> R) -> R -> (Z -> R) -> (Z -> R) -> (Z -> R)) (s : R) (V : Z -> R) (t : R) (U J0 : Z -> R) : fd_state :=
    let f : residual := fun l G => Fun s (nth 0 l zero_array) t (nth 1 l zero_array) G in
    let h := delta_wp sqrteps N U in
    let F := Fun s V t U zero_array in
    fd_loop M N f F h [s; 1%R] [V; U] zero_array J0.

  (** src/petigafdjac.c:76-109 IGAFormIEJacobianFD: residual(s,V,t,U,t0,U0) *)
  Definition iejacobian_fd (Fun : R -> (Z -> R) -> R -> (Z -> R) -> R -> (Z -> R) -> (Z -> R) -> (Z -> R))
      (s : R) (V : Z -> R) (t : R) (U : Z -> R) (t0 : R) (U0 J0 : Z -> R) : fd_state :=
    let f : residual := fun l G => Fun s (nth 0 l zero_array) t (nth 1 l zero_array) t0 U0 G in
    let h := delta_wp sqrteps N U in
    let F := Fun s V t U t0 U0 zero_array in
    fd_loop M N f F h [s; 1%R] [V; U] zero_array J0.

  (** src/petigafdjac.c:111-148 IGAFormI2JacobianFD: residual(a,A,v,V,t,U) *)
  Definition i2jacobian_fd (Fun : R -> (Z -> R) -> R -> (Z -> R) -> R -> (Z -> R) -> (Z -> R) -> (Z -> R))
      (a : R) (A : Z -> R) (v : R) (V : Z -> R) (t : R) (U J0 : Z -> R) : fd_state :=
    let f : residual := fun l G => Fun a (nth 0 l zero_array) v (nth 1 l zero_array) t (nth 2 l zero_array) G in
    let h := delta_wp sqrteps N U in
    let F := Fun a A v V t U zero_array in
    fd_loop M N f F h [a; v; 1%R] [A; V; U] zero_array J0.

  (** src/petigafdjac.c:150-177 IGAFormRHSJacobianFD: residual(t,U) *)
  Definition rhsjacobian_fd (Fun : R -> (Z -> R) -> (Z -> R) -> (Z -> R)) (t : R) (U J0 : Z -> R) : fd_state :=
    let f : residual := fun l G => Fun t (nth 0 l zero_array) G in
    let h := delta_wp sqrteps N U in
    let F := Fun t U zero_array in
    fd_loop M N f F h [1%R] [U] zero_array J0.
End Routines.
