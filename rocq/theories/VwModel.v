(** What IGAView prints about an IGA (src/petiga.c:158-249).  Definitions only. *)
From Coq Require Import ZArith List Bool.
From Verif Require Import Prelude AxisModel SetupModel.
Import ListNotations.
Open Scope Z_scope.

(** The text printed for the continuity: a star, one number, or a range. *)
Inductive shown := Star | One (c : Z) | Range (a b : Z).

Section View.
  Context {O : KnotOrd}.

  (** src/petiga.c:168-172: the loop over the knots; [None] when it has not ended after [fuel] iterations. *)
  Fixpoint cont_loop (p m : Z) (U : Z -> O) (ke : Z) (fuel : nat) (k cmin cmax : Z) : option (Z * Z) :=
    if k <? ke
    then match fuel with
         | 0%nat => None
         | S f => let j := next_knot_up m U k in
                  cont_loop p m U ke f j (Z.min cmin (p - (j - k))) (Z.max cmax (p - (j - k)))
         end
    else Some (cmin, cmax).

  (** src/petiga.c:158-175 IGA_ContinuityString.  (The buffer of 8 characters holds numbers of three digits;
      longer ones PetscSNPrintf would cut off.) *)
  Definition continuity_string (a : axis O) : option shown :=
    let p := ax_p a in let m := ax_m a in let U := ax_U a in
    let ks := if ax_periodic a then next_knot_down m U p + 1 else p + 1 in
    let ke := if ax_periodic a then next_knot_up m U (m - p) - 1 else m - p in
    match cont_loop p m U ke (Z.to_nat m) ks p (-1) with
    | None => None
    | Some (cmin, cmax) =>
        if (ax_nel a =? 1) && negb (ax_periodic a) then Some Star
        else if cmin =? cmax then Some (One cmin) else Some (Range cmin cmax)
    end.
End View.

(** src/petiga.c:211-213: [ival] of a rank. *)
Definition ival (dim : Z) (width : Z -> Z) : Z := fold_left (fun v i => v * width i) (zseq 0 dim) 1.
(** src/petiga.c:215-217: MPI_Allreduce with MPI_SUM, MPI_MIN, MPI_MAX over the ranks. *)
Definition all_sum (size : Z) (v : Z -> Z) : Z := fold_left (fun s r => s + v r) (zseq 1 (size - 1)) (v 0).
Definition all_min (size : Z) (v : Z -> Z) : Z := fold_left (fun s r => Z.min s (v r)) (zseq 1 (size - 1)) (v 0).
Definition all_max (size : Z) (v : Z -> Z) : Z := fold_left (fun s r => Z.max s (v r)) (zseq 1 (size - 1)) (v 0).

(** src/petiga.c:209-223: sum, minimum and maximum of the nodes and of the elements of the ranks. *)
Definition shown_nodes (size dim : Z) (LY : Z -> layout) : Z * Z * Z :=
  let v := fun r => ival dim (fun i => r_lwidth (ly_node (LY r) i)) in (all_sum size v, all_min size v, all_max size v).
Definition shown_elems (size dim : Z) (LY : Z -> layout) : Z * Z * Z :=
  let v := fun r => ival dim (ly_elem_width (LY r)) in (all_sum size v, all_min size v, all_max size v).
