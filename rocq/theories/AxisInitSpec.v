(** What an initialised axis should be: the fields filled in from break points, degree and continuity. *)
From Coq Require Import ZArith List Bool Reals.
From Verif Require Import Prelude RealOrd AxisModel AxisSpec.
Import ListNotations.
Open Scope Z_scope.

(** Everything about a successful initialisation from breaks [brk 0 < ... < brk r]. *)
Record good_axis (p C r : Z) (brk : Z -> R) (per : bool) (a : axis Rord) : Prop := {
  ga_per : ax_periodic a = per;
  ga_p : ax_p a = p;
  ga_m : ax_m a = 2*p + 1 + (r-1)*(p-C);
  ga_valid : @valid_knots Rord p (ax_m a) (ax_U a);
  ga_nel : ax_nel a = r;
  ga_span : exists l, ax_span a = Some l /\ Z.of_nat (length l) = r /\
                      is_element_list p (ax_m a) (ax_U a) l /\
                      forall b, 0 <= b < r ->
                        nth (Z.to_nat b) l 0 = p + b*(p-C) /\
                        ax_U a (p + b*(p-C)) = brk b /\ ax_U a (p + b*(p-C) + 1) = brk (b+1);
  ga_nnp : ax_nnp a = if per then r*(p-C) else r*(p-C) + C + 1;
  ga_nnp' : ax_nnp a = axis_nnp per p (ax_m a) (ax_U a);
  ga_mult : forall b, 1 <= b <= r-1 -> count_eq (ax_U a) p (ax_m a - p) (brk b) = p - C;
  ga_periodic : per = true -> forall i, 0 <= i -> i + ax_nnp a <= ax_m a ->
                ax_U a (i + ax_nnp a) = (ax_U a i + (brk r - brk 0%Z))%R;
  ga_open : per = false -> (forall i, 0 <= i <= p -> ax_U a i = brk 0) /\
                           (forall i, ax_m a - p <= i <= ax_m a -> ax_U a i = brk r) /\
                           count_eq (ax_U a) 0 (ax_m a) (brk 0) = p + 1 /\
                           count_eq (ax_U a) 0 (ax_m a) (brk r) = p + 1 /\
                           (forall b, 1 <= b <= r-1 -> count_eq (ax_U a) 0 (ax_m a) (brk b) = p - C) /\
                           (forall i, 0 <= i <= ax_m a -> exists b, 0 <= b <= r /\ ax_U a i = brk b)
}.

