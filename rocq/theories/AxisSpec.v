(** What a knot vector, its elements and its basis functions are, independently of the code. *)
From Coq Require Import ZArith List Bool Sorted.
From Verif Require Import Prelude.
Import ListNotations.
Open Scope Z_scope.

Section AxisSpec.
  Context {O : KnotOrd}.
  Implicit Types (U : Z -> O).

  (** U[0..m] is nondecreasing. *)
  Definition nondecreasing (m : Z) U : Prop :=
    forall i j, 0 <= i -> i <= j -> j <= m -> kle (U i) (U j).

  (** How many of U[lo..hi] equal v. *)
  Definition count_eq U (lo hi : Z) (v : O) : Z :=
    Z.of_nat (length (filter (fun i => keqb (U i) v) (zseq lo (hi - lo + 1)))).

  (** Admissible knot vector of degree p with last knot index m. *)
  Definition valid_knots (p m : Z) U : Prop :=
    1 <= p /\ 2*p+1 <= m /\ nondecreasing m U /\
    (forall v, count_eq U 1 (m-1) v <= p).

  (** k is the index of a nonempty knot span of the parametric domain [U[p], U[m-p]]. *)
  Definition is_element (p m : Z) U (k : Z) : Prop :=
    p <= k <= m - p - 1 /\ klt (U k) (U (k+1)).

  (** The list of elements: exactly the nonempty spans, strictly increasing. *)
  Definition is_element_list (p m : Z) U (l : list Z) : Prop :=
    (forall k, In k l <-> is_element p m U k) /\ StronglySorted Z.lt l.

  (** Basis function A (support U[A]..U[A+p+1]) is active on span k. *)
  Definition active (p A k : Z) : Prop := k - p <= A <= k.
End AxisSpec.

(** A consistent axis: admissible knots, the element list, and the number of basis functions
    (for a periodic axis, functions identified across the seam are counted once: the last domain
    knot U[m-p] occurs [s] times from index m-p on and the last p+1-s functions are images). *)
Definition axis_wf {O : KnotOrd} (per : bool) (p m : Z) (U : Z -> O) (nnp nel : Z) (span : list Z) : Prop :=
  valid_knots p m U /\ is_element_list p m U span /\ nel = Z.of_nat (length span) /\
  nnp = (if per then (m-p) - (p + 1 - count_eq U (m-p) (m-1) (U (m-p))) else m - p).

(** First and last interval of the parametric domain are nonempty. *)
Definition ends_nonempty {O : KnotOrd} (p m : Z) (U : Z -> O) : Prop :=
  klt (U p) (U (p+1)) /\ klt (U (m-p-1)) (U (m-p)).
