(** Model of IGAProbe (src/petigaprobe.c): location of a point, gathering of the coefficients, evaluation.
    Definitions only.  All ranks are described together; arithmetic is exact (reals). *)
From Coq Require Import ZArith List Bool Reals.
From Verif Require Import Prelude RealOrd Box AxisModel SetupModel MapModel.
Import ListNotations.
Open Scope Z_scope.

(** What IGAProbeCreate (src/petigaprobe.c:44-60) takes from the IGA and never changes: dim, nsd, dof, the axes,
    the geometry ranges of every rank, the local arrays of weights and control points (None: not set; the ranks
    agree) and the routine computing the 1D basis functions, selected by the basis type
    (src/petigaprobe.c:308-324): [pe_basis i k u p d U o a] is entry (o,a) of the table of direction i. *)
Record penv := mk_penv {
  pe_dim : Z; pe_nsd : Z; pe_dof : Z;
  pe_axes : Z -> axis Rord;
  pe_geom : Z -> Z -> range;
  pe_W : option (Z -> Z -> R);
  pe_X : option (Z -> Z -> R);
  pe_basis : Z -> Z -> R -> Z -> Z -> (Z -> R) -> Z -> Z -> R }.

(** struct _n_IGAProbe, the part that changes.  [pb_vec] is arrayA, the local array of the vector. *)
Record probe := mk_probe {
  pb_order : Z; pb_coll : bool; pb_point : Z -> R; pb_ID : Z -> Z; pb_off : bool;
  pb_vec : option (Z -> R);
  pb_W : Z -> R; pb_X : Z -> R; pb_A : Z -> R;
  pb_M : nders; pb_mapX : nders; pb_E : inv_map; pb_S : nders }.

Definition pb_set_order (q : probe) (o : Z) : probe :=
  mk_probe o (pb_coll q) (pb_point q) (pb_ID q) (pb_off q) (pb_vec q) (pb_W q) (pb_X q) (pb_A q) (pb_M q) (pb_mapX q) (pb_E q) (pb_S q).
Definition pb_set_coll (q : probe) (c : bool) : probe :=
  mk_probe (pb_order q) c (pb_point q) (pb_ID q) (pb_off q) (pb_vec q) (pb_W q) (pb_X q) (pb_A q) (pb_M q) (pb_mapX q) (pb_E q) (pb_S q).
Definition pb_set_vec (q : probe) (v : option (Z -> R)) : probe :=
  mk_probe (pb_order q) (pb_coll q) (pb_point q) (pb_ID q) (pb_off q) v (pb_W q) (pb_X q) (pb_A q) (pb_M q) (pb_mapX q) (pb_E q) (pb_S q).
Definition pb_set_loc (q : probe) (u : Z -> R) (id : Z -> Z) (off : bool) : probe :=
  mk_probe (pb_order q) (pb_coll q) u id off (pb_vec q) (pb_W q) (pb_X q) (pb_A q) (pb_M q) (pb_mapX q) (pb_E q) (pb_S q).
Definition pb_set_data (q : probe) (W X A : Z -> R) : probe :=
  mk_probe (pb_order q) (pb_coll q) (pb_point q) (pb_ID q) (pb_off q) (pb_vec q) W X A (pb_M q) (pb_mapX q) (pb_E q) (pb_S q).
Definition pb_set_tab (q : probe) (M X : nders) (E : inv_map) (N : nders) : probe :=
  mk_probe (pb_order q) (pb_coll q) (pb_point q) (pb_ID q) (pb_off q) (pb_vec q) (pb_W q) (pb_X q) (pb_A q) M X E N.

Section Probe.
  Variable E : penv.
  Let dim := pe_dim E.
  Let nsd := pe_nsd E.
  Let dof := pe_dof E.
  (** prb->p[i]: the axes dim..2 have been reset to degree zero (src/petiga.c:1125-1126). *)
  Definition pr_p (i : Z) : Z := if i <? dim then ax_p (pe_axes E i) else 0.
  (** prb->nen (src/petigaprobe.c:51-56) *)
  Definition pr_nen : Z := (pr_p 0 + 1) * (pr_p 1 + 1) * (pr_p 2 + 1).

  (** src/petigaprobe.c:242-246: prb->ID[i]; directions dim..2 keep the zero of PetscCalloc1.  The search does not
      run out of fuel (C29_find_span_terminates). *)
  Definition pr_ID (r : Z) (u : Z -> R) (i : Z) : Z :=
    if i <? dim
    then match find_span (O:=Rord) (r_size (pe_geom E r i) - 1) (ax_p (pe_axes E i)) (u i) (ax_U (pe_axes E i)) with
         | Some k => k
         | None => -1
         end
    else 0.

  (** src/petigaprobe.c:248-255: prb->offprocess *)
  Definition pr_off (r : Z) (id : Z -> Z) : bool :=
    existsb (fun i => let first := id i - pr_p i in
                      let last := first + pr_p i in
                      let start := r_gstart (pe_geom E r i) in
                      let stop := r_gstart (pe_geom E r i) + r_gwidth (pe_geom E r i) in
                      (first <? start) || (stop <=? last)) (zseq 0 dim).

  Definition locate (r : Z) (u : Z -> R) (q : probe) : probe :=
    let pt := fun i => if i <? dim then u i else pb_point q i in
    let id := pr_ID r pt in pb_set_loc q pt id (pr_off r id).

  (** src/petigaprobe.c:260-283: prb->map[pos], pos counting the loop nest ka, ja, ia. *)
  Definition pr_map (r : Z) (id : Z -> Z) : list Z :=
    let s := fun i => r_gstart (pe_geom E r i) in
    let w := fun i => r_gwidth (pe_geom E r i) in
    map (fun t => let '(ia, ja, ka) := t in
           let iA := (id 0 - pr_p 0 + ia) - s 0 in
           let jA := (id 1 - pr_p 1 + ja) - s 1 in
           let kA := (id 2 - pr_p 2 + ka) - s 2 in
           iA + jA * w 0 + kA * (w 0 * w 1))
        (box zero3 (fun i => pr_p i + 1)).

  (** src/petigaprobe.c:284-294: a[c + a*bs] = array[c + map[a]*bs], a < nen, c < bs; other entries are not written. *)
  Definition gather (bs : Z) (m : list Z) (array old : Z -> R) (j : Z) : R :=
    if (0 <=? j) && (j <? Z.of_nat (length m) * bs) then array (j mod bs + nth (Z.to_nat (j / bs)) m 0 * bs) else old j.

  Definition take (r : Z) (q : probe) : probe :=
    let m := pr_map r (pb_ID q) in
    pb_set_data q
      (match pe_W E with Some W => gather 1 m (W r) (pb_W q) | None => pb_W q end)
      (match pe_X E with Some X => gather nsd m (X r) (pb_X q) | None => pb_X q end)
      (match pb_vec q with Some A => gather dof m A (pb_A q) | None => pb_A q end).

  (** MPI_Bcast of n entries from the copy [x] of the root. *)
  Definition bcast (n : Z) (x old : Z -> R) (j : Z) : R := if (0 <=? j) && (j <? n) then x j else old j.

  (** src/petigaprobe.c:306-421: 1D tables, tensor product, rationalisation, geometry map, inverse map and shape
      functions at the point; mapX[0] starts as the point.  Arrays that are not assigned keep their contents. *)
  Definition build (q : probe) : probe :=
    let B := fun d o i => pe_basis E (d-1) (pb_ID q (d-1)) (pb_point q (d-1)) (pr_p (d-1)) (pb_order q) (ax_U (pe_axes E (d-1))) o (i-1) in
    let M := basis_funs dim (pb_order q) (pr_p 0 + 1) (pr_p 1 + 1) B (pb_M q) in
    let M := match pe_W E with Some _ => rationalize (pb_order q) pr_nen (fun a => pb_W q (a-1)) M | None => M end in
    let X0 := mk_nders (fun i => if (1 <=? i) && (i <=? dim) then pb_point q (i-1) else n0 (pb_mapX q) i)
                       (n1 (pb_mapX q)) (n2 (pb_mapX q)) (n3 (pb_mapX q)) (n4 (pb_mapX q)) in
    match pe_X E with
    | Some _ =>
        let X := geometry_map (pb_order q) pr_nen (fun k a => pb_X q ((k-1) + (a-1)*nsd)) M X0 in
        if dim =? nsd
        then let F := inverse_map dim (pb_order q) X (pb_E q) in
             pb_set_tab q M X F (shape_functions dim (pb_order q) F M (pb_S q))
        else pb_set_tab q M X (pb_E q) (pb_S q)
    | None => pb_set_tab q M X0 (pb_E q) (pb_S q)
    end.

  (** src/petigaprobe.c:224-426 IGAProbeSetPoint on rank r when the probe is not collective. *)
  Definition set_point_self (r : Z) (u : Z -> R) (q : probe) : probe :=
    let q := locate r u q in if pb_off q then q else build (take r q).

  (** The same when the probe is collective: every rank of the communicator calls with the same point.  The root is
      the largest rank that holds the point (MPI_Allreduce, MPI_MAX, of rank or -1); a broadcast from rank -1 is an
      MPI error. *)
  Definition root_of (size : Z) (St : Z -> probe) : Z :=
    fold_left (fun m r => Z.max m (if pb_off (St r) then -1 else r)) (zseq 0 size) (-1).
  Definition set_point_all (size : Z) (u : Z -> R) (St : Z -> probe) : option (Z -> probe) :=
    let S1 := fun r => locate r u (St r) in
    let S2 := fun r => if pb_off (S1 r) then S1 r else take r (S1 r) in
    let root := root_of size S1 in
    let data := fun r => match pe_W E, pe_X E, pb_vec (St r) with None, None, None => false | _, _, _ => true end in
    if (root <? 0) && existsb data (zseq 0 size) then None
    else Some (fun r =>
      let q := S2 r in let z := S2 root in
      build (pb_set_data q
        (match pe_W E with Some _ => bcast pr_nen (pb_W z) (pb_W q) | None => pb_W q end)
        (match pe_X E with Some _ => bcast (pr_nen * nsd) (pb_X z) (pb_X q) | None => pb_X q end)
        (match pb_vec q with Some _ => bcast (pr_nen * dof) (pb_A z) (pb_A q) | None => pb_A q end))).

  (** src/petigaprobe.c:224-426 IGAProbeSetPoint on all ranks with the same point; the ranks agree on
      prb->collective, which is logically collective; the state of rank 0 is consulted. *)
  Definition set_point (size : Z) (u : Z -> R) (St : Z -> probe) : option (Z -> probe) :=
    if pb_coll (St 0) then set_point_all size u St else Some (fun r => set_point_self r u (St r)).

  (** src/petigaprobe.c:182-190 IGAProbeSetOrder *)
  Definition set_order (o : Z) (q : probe) : status * probe :=
    if (o <? 0) || (4 <? o) then (ErrRange, q) else (Ok, pb_set_order q o).

  (** src/petigaprobe.c:192-207 IGAProbeSetCollective *)
  Definition set_collective (size : Z) (c : bool) (q : probe) : probe := pb_set_coll q (c && negb (size =? 1)).

  (** src/petigaprobe.c:209-222 IGAProbeSetVec: [L r] is the local array of the new vector on rank r
      (IGAGetLocalVecArray copies it), and the point is set again. *)
  Definition set_vec (size : Z) (L : Z -> Z -> R) (St : Z -> probe) : option (Z -> probe) :=
    set_point size (pb_point (St 0)) (fun r => pb_set_vec (St r) (Some (L r))).

  (** src/petigaprobe.c:93-112: state at the end of IGAProbeCreate before IGAProbeSetVec; [order] is that of the IGA.
      Arrays are cleared (PetscCalloc1); mapU[1] and mapX[1] hold identity matrices, which nothing reads without a
      geometry. *)
  Definition zero_nders : nders := mk_nders (fun _ => 0%R) (fun _ _ => 0%R) (fun _ _ _ => 0%R) (fun _ _ _ _ => 0%R) (fun _ _ _ _ _ => 0%R).
  Definition probe_init (size order : Z) : probe :=
    mk_probe order (negb (size =? 1))
      (fun i => if i <? dim then ax_U (pe_axes E i) (ax_p (pe_axes E i)) else 0%R) (fun _ => 0) false None
      (fun _ => 0%R) (fun _ => 0%R) (fun _ => 0%R) zero_nders
      (mk_nders (fun _ => 0%R) (fun q i => if q =? i then 1%R else 0%R) (fun _ _ _ => 0%R) (fun _ _ _ _ => 0%R) (fun _ _ _ _ _ => 0%R))
      (mk_inv_map 1%R (fun i a => if i =? a then 1%R else 0%R) (fun _ _ _ => 0%R) (fun _ _ _ _ => 0%R) (fun _ _ _ _ _ => 0%R))
      zero_nders.

  (** Entry of the arrays N0..N4 with the derivative indices [idx]. *)
  Definition nd_get (N : nders) (idx : list Z) (a : Z) : R :=
    match idx with
    | [] => n0 N a
    | [i] => n1 N i a
    | [i; j] => n2 N i j a
    | [i; j; k] => n3 N i j k a
    | [i; j; k; l] => n4 N i j k l a
    | _ => 0%R
    end.

  (** src/petigaprobe.c:441-468 IGAProbeEvaluate: entry (idx, c) of the output, with der = length idx derivative
      indices in the order of the Fortran arrays and c = 0..dof-1; src/petigaval.F90:186-264. *)
  Definition evaluate (q : probe) (der : Z) : status * (list Z -> Z -> R) :=
    if (der <? 0) || (pb_order q <? der) then (ErrRange, fun _ _ => 0%R)
    else match pb_vec q with
    | None => (ErrState, fun _ _ => 0%R)
    | Some _ =>
        if pb_off q && negb (pb_coll q) then (Ok, fun _ _ => 0%R)
        else
          let shape := match pe_X E with Some _ => if dim =? nsd then pb_S q else pb_M q | None => pb_M q end in
          (Ok, fun idx c => eval_field pr_nen (nd_get shape idx) (fun a => pb_A q (c + (a-1)*dof)))
    end.

  (** src/petigaprobe.c:427-439 IGAProbeGeomMap, entry i = 0..nsd-1 *)
  Definition geom_map (q : probe) (i : Z) : R :=
    if pb_off q && negb (pb_coll q) then 0%R
    else match pe_X E with Some _ => n0 (pb_mapX q) (i+1) | None => if i <? dim then pb_point q i else 0%R end.
End Probe.
