(** Block storage and symmetric storage. *)
From Coq Require Import ZArith Reals.
Open Scope Z_scope.

(** The block of an entry. *)
Definition block_of (bs i j : Z) : Z * Z := (i / bs, j / bs).

(** The matrix meant by a symmetric storage [U] that holds the blocks on and above the diagonal. *)
Definition symmetric_of (bs : Z) (U : Z -> Z -> R) (i j : Z) : R :=
  if Z_le_dec (i / bs) (j / bs) then U i j else U j i.

(** A row-major n x n array is symmetric. *)
Definition symmetric_array (n : Z) (K : Z -> R) : Prop :=
  forall p q, 0 <= p < n -> 0 <= q < n -> K (p * n + q) = K (q * n + p).
