(** What an orthonormal basis of a space of vectors is; independent of the code. *)
From Coq Require Import ZArith List Reals.
From Verif Require Import Prelude GridSpec.
Open Scope Z_scope.

Section Spec.
  Variable N : Z.
  Definition inner (x y : Z -> R) : R := rsum (fun t => x t * y t)%R (zseq 0 N).
  Definition same (x y : Z -> R) : Prop := forall t, 0 <= t < N -> x t = y t.
  Definition null (x : Z -> R) : Prop := forall t, 0 <= t < N -> x t = 0%R.
  (** x is a combination of w_0, ..., w_{k-1} *)
  Definition in_span (k : Z) (w : Z -> Z -> R) (x : Z -> R) : Prop :=
    exists c : Z -> R, same x (fun t => rsum (fun j => c j * w j t)%R (zseq 0 k)).
  (** no vector is a combination of the ones before it *)
  Definition independent (n : Z) (w : Z -> Z -> R) : Prop := forall i, 0 <= i < n -> ~ in_span i w (w i).
  Definition orthonormal (n : Z) (w : Z -> Z -> R) : Prop :=
    forall i j, 0 <= i < n -> 0 <= j < n -> inner (w i) (w j) = if i =? j then 1%R else 0%R.
  Definition same_span (n m : Z) (v w : Z -> Z -> R) : Prop := forall x, in_span n v x <-> in_span m w x.
End Spec.

(** The vectors whose span is wanted: the mask where the constants are in the near null space, the vectors of the near
    null space on the mask, and the chosen vectors unmasked. *)
Definition wanted (mask : Z -> R) (cnst : bool) (size : Z) (nnsp : Z -> Z -> R) (nv : Z) (vol : Z -> Z) : list (Z -> R) :=
  ((if cnst then mask :: nil else nil) ++ map (fun i t => nnsp i t * mask t)%R (zseq 0 size) ++
   map (fun i => nnsp (vol i)) (zseq 0 nv))%list.
Definition nthv (l : list (Z -> R)) (j : Z) : Z -> R := nth (Z.to_nat j) l (fun _ => 0%R).
Definition countv (l : list (Z -> R)) : Z := Z.of_nat (length l).
