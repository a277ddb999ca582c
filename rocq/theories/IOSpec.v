(** What the arrays attached to a discretisation hold, node by node, whatever the number of processes. *)
From Coq Require Import ZArith List Bool Reals.
From Verif Require Import Prelude RealOrd Box AxisModel AxisSpec SetupModel IOModel.
Open Scope Z_scope.

(** A rank holds the nodes of a box, first direction fastest; this is the position of node t. *)
Definition local_node (g : Z -> range) (t : triple) : Z :=
  let '(i, j, k) := t in
  (i - r_gstart (g 0)) + r_gwidth (g 0) * ((j - r_gstart (g 1)) + r_gwidth (g 1) * (k - r_gstart (g 2))).
Definition owned_by (g : Z -> range) (t : triple) : Prop := in_box (fun d => r_lstart (g d)) (fun d => r_lwidth (g d)) t.
Definition held_by (g : Z -> range) (t : triple) : Prop := in_box (fun d => r_gstart (g d)) (fun d => r_gwidth (g d)) t.

(** The arrays [A r] of the ranks r < size have [bs] components per node; component c of node t is [F t c].
    [on] says which copies are meant: those of the owners, or all of them. *)
Definition stores (on : (Z -> range) -> triple -> Prop) (size : Z) (geom : Z -> Z -> range) (bs : Z)
    (A : Z -> Z -> R) (F : triple -> Z -> R) : Prop :=
  forall r t c, 0 <= r < size -> on (geom r) t -> 0 <= c < bs -> A r (bs * local_node (geom r) t + c) = F t c.

(** Two axes with the same degree, knots and elements (the flag and nnp not included). *)
Definition same_axis (a b : axis Rord) : Prop :=
  ax_p a = ax_p b /\ ax_m a = ax_m b /\ (forall k, 0 <= k <= ax_m b -> ax_U a k = ax_U b k) /\
  ax_span a = ax_span b /\ ax_nel a = ax_nel b.

(** Number of control points in each direction. *)
Definition control_grid (dim : Z) (axes : Z -> axis Rord) (d : Z) : Z :=
  if d <? dim then ax_m (axes d) - ax_p (axes d) else 1.

(** The discretisation g holds control points [Xf] in nsd coordinates, weights [Wf] and npd properties [Af];
    no weights stored means weights 1; nsd = 0 or npd = 0 when there are none. *)
Definition describes (on : (Z -> range) -> triple -> Prop) (size : Z) (g : io_iga)
    (nsd : Z) (Xf : triple -> Z -> R) (Wf : triple -> R) (npd : Z) (Af : triple -> Z -> R) : Prop :=
  io_nsd g = nsd /\ io_npd g = npd /\
  (nsd <> 0 -> exists X, io_X g = Some X /\ stores on size (io_geom g) nsd X Xf /\
     match io_W g with Some W => stores on size (io_geom g) 1 W (fun t _ => Wf t) | None => forall t, Wf t = 1%R end) /\
  (npd <> 0 -> exists A, io_A g = Some A /\ stores on size (io_geom g) npd A Af).
