(** Model of src/petigapart.c.  Definitions only.
    The floating point root guesses are arbitrary functions ([g2], [g3]); all operands of / and %
    are nonnegative, so Z.div/Z.modulo are C's operators. *)
From Coq Require Import ZArith List Bool.
From Verif Require Import Prelude.
Import ListNotations.
Open Scope Z_scope.

(** src/petigapart.c:13-15 *)
Definition cut2 (M N m n : Z) : Z := M*(n-1) + N*(m-1).
(** src/petigapart.c:18-20 *)
Definition cut3 (M N P m n p : Z) : Z := N*P*(m-1) + M*P*(n-1) + M*N*(p-1).

(** src/petigapart.c:29 and 60: [while (m > 0 && size % m) m--]. *)
Fixpoint dec_to_divisor (size : Z) (fuel : nat) (m : Z) : Z :=
  if (0 <? m) && negb (size mod m =? 0)
  then match fuel with
       | 0%nat => m
       | S f => dec_to_divisor size f (m-1)
       end
  else m.

(** src/petigapart.c:29 / 60 including [if (m==0) m=1]. *)
Definition divisor_from (size g : Z) : Z :=
  let m := if g =? 0 then 1 else g in dec_to_divisor size (Z.to_nat m) m.

Section Guess.
  (** (PetscInt)(0.5+sqrt(M/N*size)) at line 28 *)
  Variable g2 : Z -> Z -> Z -> Z.
  (** (PetscInt)(0.5+pow(M*M/(N*P)*size,1./3.)) at line 59 *)
  Variable g3 : Z -> Z -> Z -> Z -> Z.

  (** src/petigapart.c:22-33 IGA_PART2D_INNER: (m, n, cut). *)
  Definition part2_inner (size M N : Z) : Z * Z * Z :=
    let m := divisor_from size (g2 size M N) in
    let n := size / m in
    (m, n, cut2 M N m n).

  (** src/petigapart.c:35-49 IGA_PART2D *)
  Definition PART2D (size M N : Z) : Z * Z :=
    let '(m1, n1, a) := part2_inner size M N in
    let '(n2, m2, b) := part2_inner size N M in
    let '(m, n) := if a <? b then (m1, n1) else (m2, n2) in
    if (M =? N) && (n <? m) then (n, m) else (m, n).

  (** The state (m,n,p,C) of IGA_PART3D_INNER. *)
  Definition better (st cand : Z * Z * Z * Z) : Z * Z * Z * Z :=
    let '(_, _, _, C) := st in let '(_, _, _, CC) := cand in if CC <? C then cand else st.

  (** A loop [for (x=x0; x>=1; x--)]: x0, x0-1, ..., 1. *)
  Definition down_from (x : Z) : list Z := map (fun i => x - i) (zseq 0 x).

  (** src/petigapart.c:51-88 IGA_PART3D_INNER: (m, n, p, cut). *)
  Definition part3_inner (size M N P : Z) : Z * Z * Z * Z :=
    let m := divisor_from size (g3 size M N P) in
    let '(n, p) := PART2D (size / m) N P in
    let st0 := (m, n, p, cut3 M N P m n p) in
    let st1 := fold_left (fun st mm =>
                 if negb (size mod mm =? 0) then st
                 else let '(nn, pp) := PART2D (size / mm) N P in
                      better st (mm, nn, pp, cut3 M N P mm nn pp)) (down_from m) st0 in
    let '(_, n1, _, _) := st1 in
    let st2 := fold_left (fun st nn =>
                 if negb (size mod nn =? 0) then st
                 else let '(mm, pp) := PART2D (size / nn) M P in
                      better st (mm, nn, pp, cut3 M N P mm nn pp)) (down_from n1) st1 in
    let '(_, _, p2, _) := st2 in
    let st3 := fold_left (fun st pp =>
                 if negb (size mod pp =? 0) then st
                 else let '(mm, nn) := PART2D (size / pp) M N in
                      better st (mm, nn, pp, cut3 M N P mm nn pp)) (down_from p2) st2 in
    let '(m3, n3, p3, _) := st3 in
    (m3, n3, p3, cut3 M N P m3 n3 p3).

  (** src/petigapart.c:90-104 IGA_PART3D.  [maxint] is PETSC_MAX_INT, the initial Cmin; i=0 when no
      cut is smaller. *)
  Definition PART3D (maxint size M N P : Z) : Z * Z * Z :=
    let '(m0, n0, p0, C0) := part3_inner size M N P in
    let '(n1, m1, p1, C1) := part3_inner size N M P in
    let '(p2, m2, n2, C2) := part3_inner size P M N in
    let s0 := ((m0, n0, p0), maxint) in
    let s1 := if C0 <? snd s0 then ((m0, n0, p0), C0) else s0 in
    let s2 := if C1 <? snd s1 then ((m1, n1, p1), C1) else s1 in
    let s3 := if C2 <? snd s2 then ((m2, n2, p2), C2) else s2 in
    let '(m, n, p) := fst s3 in
    let '(m, n) := if (M =? N) && (n <? m) then (n, m) else (m, n) in
    let '(m, p) := if (M =? P) && (p <? m) then (p, m) else (m, p) in
    let '(n, p) := if (N =? P) && (p <? n) then (p, n) else (n, p) in
    (m, n, p).

  (** src/petigapart.c:106-117 IGA_Part2D *)
  Definition Part2D (size M N m n : Z) : Z * Z :=
    if (m <? 1) && (n <? 1) then PART2D size M N
    else if m <? 1 then (size / n, n)
    else if n <? 1 then (m, size / m)
    else (m, n).

  (** src/petigapart.c:119-134 IGA_Part3D *)
  Definition Part3D (maxint size M N P m n p : Z) : Z * Z * Z :=
    if (m <? 1) && (n <? 1) && (p <? 1) then PART3D maxint size M N P
    else if (m <? 1) && (n <? 1) then let '(m', n') := PART2D (size / p) M N in (m', n', p)
    else if (m <? 1) && (p <? 1) then let '(m', p') := PART2D (size / n) M P in (m', n, p')
    else if (n <? 1) && (p <? 1) then let '(n', p') := PART2D (size / m) N P in (m, n', p')
    else if m <? 1 then (size / (n*p), n, p)
    else if n <? 1 then (m, size / (m*p), p)
    else if p <? 1 then (m, n, size / (m*n))
    else (m, n, p).

  (** src/petigapart.c:151-156, the switch on dim; dim is the common length of the arrays. *)
  Definition part_switch (maxint size : Z) (N n : list Z) : option (list Z) :=
    match N, n with
    | [L0; L1; L2], [n0; n1; n2] =>
        let '(a, b, c) := Part3D maxint size L0 L1 L2 n0 n1 n2 in Some [a; b; c]
    | [L0; L1], [n0; n1] => let '(a, b) := Part2D size L0 L1 n0 n1 in Some [a; b]
    | [L0], [n0] => Some [if n0 <? 1 then size else n0]
    | _, _ => None
    end.

  (** src/petigapart.c:161-166: coordinates of a rank in the process grid. *)
  Fixpoint rank_coords (n : list Z) (rank : Z) : list Z :=
    match n with
    | [] => []
    | n0 :: n' => let i := rank mod n0 in i :: rank_coords n' ((rank - i) / n0)
    end.

  (** src/petigapart.c:136-168 IGA_Partition: status, n[] after the call, i[] after the call. *)
  Definition partition (maxint size rank : Z) (N n : list Z) : status * list Z * list Z :=
    if size <? 1 then (ErrRange, n, [])
    else if (rank <? 0) || (size <=? rank) then (ErrRange, n, [])
    else match part_switch maxint size N n with
         | None => (ErrRange, n, [])
         | Some n' =>
             if negb (zprod n' =? size) then (ErrRange, n', [])
             else if existsb (fun Nn => fst Nn <? snd Nn) (combine N n') then (ErrRange, n', [])
             else (Ok, n', rank_coords n' rank)
         end.
End Guess.

(** src/petigapart.c:170-176 IGA_Dist1D: (count, start) of block [rank]. *)
Definition dist1d (size rank N : Z) : Z * Z :=
  (N / size + (if rank <? N mod size then 1 else 0),
   rank * (N / size) + (if rank <? N mod size then rank else N mod size)).

Definition dist_n (size N rank : Z) : Z := fst (dist1d size rank N).
Definition dist_s (size N rank : Z) : Z := snd (dist1d size rank N).
