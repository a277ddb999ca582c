(** Which knot vectors are periodic as far as the nonzero structure of matrices is concerned. *)
From Coq Require Import ZArith List.
From Verif Require Import Prelude.
Open Scope Z_scope.

(** Every nonempty interval of the domain at or after index nnp+1 has a nonempty interval nnp knots
    before it: the knots near the beginning repeat the pattern of those near the end.  (Only
    emptiness matters; the lengths may differ.  Nothing is asked of the interval U[0],U[1].) *)
Definition periodic_pattern {O : KnotOrd} (p m nnp : Z) (U : Z -> O) : Prop :=
  forall i, 1 <= i -> i + nnp <= m - p - 1 -> klt (U (i + nnp)) (U (i + nnp + 1)) -> klt (U i) (U (i + 1)).
