(** Model of src/petigaaxis.c and of the knot searches in src/petigabasis.c.
    Definitions only.  Polymorphic in the comparison of knot values. *)
From Coq Require Import ZArith List Bool.
From Verif Require Import Prelude.
Import ListNotations.
Open Scope Z_scope.

Section Axis.
  Context {O : KnotOrd}.
  Implicit Types (U : Z -> O) (m k p : Z).

  (** C loop [for (j=j0; j<m; j++) if (P(j)) return j; return m;] ([fuel] = m-j0). *)
  Fixpoint scan_up (P : Z -> bool) (fuel : nat) (j m : Z) : Z :=
    match fuel with
    | 0%nat => m
    | S f => if P j then j else scan_up P f (j+1) m
    end.

  (** C loop [for (j=j0; j>0; j--) if (P(j)) return j; return 0;] ([fuel] = j0). *)
  Fixpoint scan_down (P : Z -> bool) (fuel : nat) (j : Z) : Z :=
    match fuel with
    | 0%nat => 0
    | S f => if P j then j else scan_down P f (j-1)
    end.

  (** src/petigaaxis.c:482-494 IGA_NextKnot, direction >= 0. *)
  Definition next_knot_up m U k : Z :=
    if k <? 0 then 0
    else scan_up (fun j => kltb (U k) (U j)) (Z.to_nat (m - (k+1))) (k+1) m.

  (** src/petigaaxis.c:482-494 IGA_NextKnot, direction < 0. *)
  Definition next_knot_down m U k : Z :=
    if k >? m then m
    else scan_down (fun j => kltb (U j) (U k)) (Z.to_nat (k-1)) (k-1).

  (** src/petigaaxis.c:290-304, the while loop of IGAAxisGetSpans: list of span indices, [None]
      when the loop has not ended after [fuel] iterations. *)
  Fixpoint spans_loop m U (n1 : Z) (fuel : nat) k : option (list Z) :=
    match fuel with
    | 0%nat => None
    | S f =>
        let k' := next_knot_up m U k in
        if k' <=? n1
        then match spans_loop m U n1 f k' with
             | Some l => Some (k' - 1 :: l)
             | None => None
             end
        else Some []
    end.

  (** src/petigaaxis.c:286-310 IGAAxisGetSpans when no span array is cached
      (n+1 = m-p).  m+2 iterations always suffice when p >= 1 (proved). *)
  Definition get_spans p m U : option (list Z) :=
    spans_loop m U (m - p) (Z.to_nat (m + 2)) p.

  (** src/petigaaxis.c:237-248 and 465-476: number of nodes from the knots. *)
  Definition axis_nnp (periodic : bool) p m U : Z :=
    let n := m - p - 1 in
    if periodic
    then let k := n + 1 in
         let j := next_knot_up m U k in
         let s := j - k in
         let C := p - s in
         n - C
    else n + 1.

  (** include/petiga.h struct _n_IGAAxis (reference count omitted).  [ax_span = None] models the
      NULL span pointer. *)
  Record axis := mk_axis {
    ax_periodic : bool;
    ax_p : Z;
    ax_m : Z;
    ax_U : Z -> O;
    ax_nnp : Z;
    ax_nel : Z;
    ax_span : option (list Z)
  }.

  (** src/petigaaxis.c:3-27 IGAAxisCreate / 44-71 IGAAxisReset; [ulo], [uhi] are -0.5 and 0.5. *)
  Definition axis_create (ulo uhi : O) : axis :=
    mk_axis false 0 1 (fun i => if i =? 0 then ulo else uhi) 1 1 (Some [0]).

  (** src/petigaaxis.c:147-153 IGAAxisSetPeriodic. *)
  Definition axis_set_periodic (b : bool) (a : axis) : status * axis :=
    (Ok, mk_axis b (ax_p a) (ax_m a) (ax_U a) (ax_nnp a) (ax_nel a) (ax_span a)).

  (** src/petigaaxis.c:177-187 IGAAxisSetDegree. *)
  Definition axis_set_degree (p : Z) (a : axis) : status * axis :=
    if p <? 1 then (ErrRange, a)
    else if (0 <? ax_p a) && (1 <? ax_m a) && negb (ax_p a =? p) then (ErrState, a)
    else (Ok, mk_axis (ax_periodic a) p (ax_m a) (ax_U a) (ax_nnp a) (ax_nel a) (ax_span a)).

  (** src/petigaaxis.c:216-219: the loop [for (k=1;k<=m;k++) if (U[k-1]>U[k]) error]. *)
  Definition increasing_ok m U : bool :=
    forallb (fun k => negb (kltb (U k) (U (k-1)))) (zseq 1 m).

  (** src/petigaaxis.c:220-224: the loop
      [for (k=1,j=m; k<m; k=j) { j=NextKnot(m,U,k,1); if (j-k>p) error }];
      [None] when it has not ended after [fuel] iterations. *)
  Fixpoint multiplicity_loop p m U (fuel : nat) k : option bool :=
    if k <? m
    then match fuel with
         | 0%nat => None
         | S f => let j := next_knot_up m U k in
                  if j - k >? p then Some false else multiplicity_loop p m U f j
         end
    else Some true.
  Definition multiplicity_ok p m U : option bool := multiplicity_loop p m U (Z.to_nat m) 1.

  (** src/petigaaxis.c:202-251 IGAAxisSetKnots. *)
  Definition axis_set_knots (m : Z) (U : Z -> O) (a : axis) : status * axis :=
    let p := ax_p a in
    if p <? 1 then (ErrOrder, a)
    else if m <? 2*p+1 then (ErrRange, a)
    else if negb (increasing_ok m U) then (ErrRange, a)
    else match multiplicity_ok p m U with
         | None => (ErrFuel, a)
         | Some false => (ErrRange, a)
         | Some true =>
             match get_spans p m U with
             | None => (ErrFuel, a)
             | Some sp =>
                 (Ok, mk_axis (ax_periodic a) p m U
                        (axis_nnp (ax_periodic a) p m U)
                        (Z.of_nat (length sp)) (Some sp))
             end
         end.

  (** src/petigaaxis.c:312-321 IGAAxisInit: clears p first, then SetDegree and SetKnots; an error
      returns immediately with whatever has been changed. *)
  Definition axis_init (p m : Z) (U : Z -> O) (a : axis) : status * axis :=
    let a0 := mk_axis (ax_periodic a) 0 (ax_m a) (ax_U a) (ax_nnp a) (ax_nel a) (ax_span a) in
    match axis_set_degree p a0 with
    | (Ok, a1) => axis_set_knots m U a1
    | r => r
    end.

  (** src/petigaaxis.c:456-480 IGAAxisSetUp. *)
  Definition axis_setup (a : axis) : status * axis :=
    let p := ax_p a in let m := ax_m a in
    if p <? 1 then (ErrOrder, a)
    else if m <? 2*p+1 then (ErrOrder, a)
    else
      let osp := match ax_span a with
                 | Some sp => Some (ax_nel a, sp)
                 | None => match get_spans p m (ax_U a) with
                           | Some sp => Some (Z.of_nat (length sp), sp)
                           | None => None
                           end
                 end in
      match osp with
      | None => (ErrFuel, a)
      | Some (nel, sp) =>
          (Ok, mk_axis (ax_periodic a) p m (ax_U a)
                 (axis_nnp (ax_periodic a) p m (ax_U a)) nel (Some sp))
      end.

  (** src/petigaaxis.c:96-119 IGAAxisCopy (data part). *)
  Definition axis_copy (base : axis) : axis := base.

  (** src/petigabasis.c:301-318 IGA_FindSpan: the while loop; [None] when out of fuel. *)
  Fixpoint find_span_loop (u : O) U (fuel : nat) (low high span : Z) : option Z :=
    if kltb u (U span) || negb (kltb u (U (span+1)))
    then match fuel with
         | 0%nat => None
         | S f =>
             if kltb u (U span)
             then find_span_loop u U f low span ((span + low) / 2)
             else find_span_loop u U f span high ((high + span) / 2)
         end
    else Some span.

  (** src/petigabasis.c:301-318 IGA_FindSpan. *)
  Definition find_span (n p : Z) (u : O) U : option Z :=
    if negb (kltb (U p) u) then Some p
    else if negb (kltb u (U (n+1))) then Some n
    else find_span_loop u U (Z.to_nat (n + 1 - p)) p (n+1) ((n + 1 + p) / 2).

  (** src/petigamat.c:197-233 Stencil, quadrature (non collocation) branch: first and last
      column of row [i]. *)
  Definition stencil (periodic : bool) p m U (i : Z) : Z * Z :=
    let n := m - p - 1 in
    let first := next_knot_up m U i - p - 1 in
    let last := next_knot_down m U (i + p + 1) in
    if negb periodic then
      (if i <=? p then 0 else first, if n - p <=? i then n else last)
    else if i =? 0 then
      let k := n + 1 in
      let j := next_knot_up m U k in
      let s := j - k in let C := p - s in let nnp := n - C in
      (next_knot_up m U nnp - nnp - p - 1, last)
    else (first, last).
End Axis.
Arguments axis : clear implicits.
