(** Model of the error norms (src/petigacomp.c, src/petigapoint.c).  Definitions only. *)
From Coq Require Import ZArith List Bool Reals.
From Verif Require Import Prelude AxisModel Box AxisInitModel SetupModel GridModel ElemModel BCModel DrvModel.
Import ListNotations.
Open Scope Z_scope.

(** src/petigaval.F90:182-290 IGA_GetValue, IGA_GetGrad, IGA_GetHess, IGA_GetDer3, IGA_GetDer4 with
    n = 1, dim, dim^2, dim^3, dim^4: N(n,nen), U(dof,nen), V(n,dof), column major. *)
Definition point_evaluate (nen dof n : Z) (N U : Z -> R) : Z -> R :=
  loop nen (fun a V => loop dof (fun i V => loop n (fun j V =>
    upd V (i * n + j) (V (i * n + j)%Z + N (a * n + j)%Z * U (a * dof + i)%Z)%R) V) V) (fun _ => 0%R).

(** src/petigacomp.c:100 intpow[4][5], as it lies in memory *)
Definition intpow : list Z := [1; 0; 0; 0; 0;  1; 1; 1; 1; 1;  1; 2; 4; 8; 16;  1; 3; 9; 27; 81].
(** intpow[dim][k]: the word at offset 5*dim+k; [None] behind the end of the table. *)
Definition intpow_at (dim k : Z) : option Z := nth_error intpow (Z.to_nat (5 * dim + k)).
(** PetscClipInterval *)
Definition clip (x a b : Z) : Z := Z.max a (Z.min b x).

(** src/petigacomp.c:102-122 ErrorSqr at one point; [N] is shape[order] of the point, [exact] what the user's
    function leaves in the zeroed array; errsqr starts with the zeros of IGAComputeScalar's workS. *)
Definition error_sqr (nen dof n : Z) (N : Z -> R) (exact : option ((Z -> R) -> Z -> R)) (U : Z -> R) : Z -> R :=
  let v_approx := point_evaluate nen dof n N U in
  let v_exact := match exact with Some E => E (fun _ => 0%R) | None => fun _ => 0%R end in
  loop dof (fun i E => loop n (fun j E =>
    let e := Rabs (v_exact (i * n + j)%Z - v_approx (i * n + j)%Z)%R in upd E i (E i + e * e)%R) E) (fun _ => 0%R).

Inductive outcome := Fails (s : status) | Undefined | Norm (f : Z -> R).

Section ErrorNorm.
  Variable size : Z.
  Variable G : Z -> grid.
  Variable dim dof : Z.
  Variable elems : Z -> list triple.
  Variable mapping : Z -> triple -> list Z.
  Variable nen : Z.
  Variable npts : triple -> Z.
  Variable JW : triple -> Z -> R.
  (** iga->order; the tables of higher derivatives keep the zeros of IGAElementInit
      (src/petigaelem.c:316-345, 803-1030). *)
  Variable order : Z.
  Variable shape : Z -> triple -> Z -> Z -> R.     (* derivative index, element, point, position in the array *)
  Definition shape_table (k : Z) (e : triple) (q : Z) : Z -> R := if k <=? order then shape k e q else fun _ => 0%R.

  (** src/petigacomp.c:155-187 IGAComputeErrorNorm.  [Undefined] when memory outside the table or the work arrays
      is used (all elements have points and dof >= 1). *)
  Definition compute_error_norm (k : Z) (vecU : option (Z -> R)) (Exact : option (triple -> Z -> Z -> (Z -> R) -> Z -> R))
      (L0 : Z -> Z -> R) (ranks : list Z) : outcome :=
    if k <? 0 then Fails ErrRange
    else match intpow_at dim k, intpow_at (clip dim 1 3) (clip k 0 4) with
         | Some words, Some n =>
             if words <? n then Undefined
             else Norm (fun i => sqrt (compute_scalar size G dof elems mapping (match vecU with Some V => [V] | None => [] end) L0 npts JW
               (fun e q ins => error_sqr nen dof n (shape_table (clip k 0 4) e q) (option_map (fun E => E e q (clip k 0 4)) Exact) (arr (nth 0 ins [])))
               ranks i))
         | _, _ => Undefined
         end.
End ErrorNorm.
