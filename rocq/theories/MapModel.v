(** Model of the point-wise Fortran kernels: tensor products of the one-dimensional basis functions, NURBS
    rationalisation, geometry map, its inverse and the derivatives of the shape functions, boundary normals and
    field evaluation (src/petiga1d.F90, petiga2d.F90, petiga3d.F90, petigarat.f90.in, petigadet.f90.in,
    petigainv.f90.in, petigamapgeo.f90.in, petigamapinv.f90.in, petigamapshf.f90.in, petigaval.F90).

    Arrays are functions of their Fortran indices (starting at one).  Loops that accumulate into an array entry
    are modelled entry by entry, with the terms of that entry in source order; entries of the arrays that a
    routine does not assign keep their old contents.  Arithmetic is exact (reals). *)
From Coq Require Import ZArith List Bool Reals.
From Verif Require Import Prelude.
Import ListNotations.
Open Scope Z_scope.

(** src/petiga1d.F90:50-90 TensorBasisFuns, one entry per assignment: the derivative indices on the left and the
    orders of the factors iN(.,ia), jN(.,ja), kN(.,ka) on the right. *)
Definition tens_table1 : list (list Z * list Z) :=
  [([], [0]); ([1], [1]); ([1; 1], [2]); ([1; 1; 1], [3]); ([1; 1; 1; 1], [4])].

(** src/petiga2d.F90:60-129 TensorBasisFuns, one entry per assignment: the derivative indices on the left and the
    orders of the factors iN(.,ia), jN(.,ja), kN(.,ka) on the right. *)
Definition tens_table2 : list (list Z * list Z) :=
  [([], [0; 0]); ([1], [1; 0]); ([2], [0; 1]); ([1; 1], [2; 0]); ([2; 1], [1; 1]); ([1; 2], [1; 1]);
   ([2; 2], [0; 2]); ([1; 1; 1], [3; 0]); ([2; 1; 1], [2; 1]); ([1; 2; 1], [2; 1]); ([2; 2; 1], [1; 2]);
   ([1; 1; 2], [2; 1]); ([2; 1; 2], [1; 2]); ([1; 2; 2], [1; 2]); ([2; 2; 2], [0; 3]);
   ([1; 1; 1; 1], [4; 0]); ([2; 1; 1; 1], [3; 1]); ([1; 2; 1; 1], [3; 1]); ([2; 2; 1; 1], [2; 2]);
   ([1; 1; 2; 1], [3; 1]); ([2; 1; 2; 1], [2; 2]); ([1; 2; 2; 1], [2; 2]); ([2; 2; 2; 1], [1; 3]);
   ([1; 1; 1; 2], [3; 1]); ([2; 1; 1; 2], [2; 2]); ([1; 2; 1; 2], [2; 2]); ([2; 2; 1; 2], [1; 3]);
   ([1; 1; 2; 2], [2; 2]); ([2; 1; 2; 2], [1; 3]); ([1; 2; 2; 2], [1; 3]); ([2; 2; 2; 2], [0; 4])].

(** src/petiga3d.F90:70-232 TensorBasisFuns, one entry per assignment: the derivative indices on the left and the
    orders of the factors iN(.,ia), jN(.,ja), kN(.,ka) on the right. *)
Definition tens_table3 : list (list Z * list Z) :=
  [([], [0; 0; 0]); ([1], [1; 0; 0]); ([2], [0; 1; 0]); ([3], [0; 0; 1]); ([1; 1], [2; 0; 0]);
   ([2; 1], [1; 1; 0]); ([3; 1], [1; 0; 1]); ([1; 2], [1; 1; 0]); ([2; 2], [0; 2; 0]); ([3; 2], [0; 1; 1]);
   ([1; 3], [1; 0; 1]); ([2; 3], [0; 1; 1]); ([3; 3], [0; 0; 2]); ([1; 1; 1], [3; 0; 0]);
   ([2; 1; 1], [2; 1; 0]); ([3; 1; 1], [2; 0; 1]); ([1; 2; 1], [2; 1; 0]); ([2; 2; 1], [1; 2; 0]);
   ([3; 2; 1], [1; 1; 1]); ([1; 3; 1], [2; 0; 1]); ([2; 3; 1], [1; 1; 1]); ([3; 3; 1], [1; 0; 2]);
   ([1; 1; 2], [2; 1; 0]); ([2; 1; 2], [1; 2; 0]); ([3; 1; 2], [1; 1; 1]); ([1; 2; 2], [1; 2; 0]);
   ([2; 2; 2], [0; 3; 0]); ([3; 2; 2], [0; 2; 1]); ([1; 3; 2], [1; 1; 1]); ([2; 3; 2], [0; 2; 1]);
   ([3; 3; 2], [0; 1; 2]); ([1; 1; 3], [2; 0; 1]); ([2; 1; 3], [1; 1; 1]); ([3; 1; 3], [1; 0; 2]);
   ([1; 2; 3], [1; 1; 1]); ([2; 2; 3], [0; 2; 1]); ([3; 2; 3], [0; 1; 2]); ([1; 3; 3], [1; 0; 2]);
   ([2; 3; 3], [0; 1; 2]); ([3; 3; 3], [0; 0; 3]); ([1; 1; 1; 1], [4; 0; 0]); ([2; 1; 1; 1], [3; 1; 0]);
   ([3; 1; 1; 1], [3; 0; 1]); ([1; 2; 1; 1], [3; 1; 0]); ([2; 2; 1; 1], [2; 2; 0]);
   ([3; 2; 1; 1], [2; 1; 1]); ([1; 3; 1; 1], [3; 0; 1]); ([2; 3; 1; 1], [2; 1; 1]);
   ([3; 3; 1; 1], [2; 0; 2]); ([1; 1; 2; 1], [3; 1; 0]); ([2; 1; 2; 1], [2; 2; 0]);
   ([3; 1; 2; 1], [2; 1; 1]); ([1; 2; 2; 1], [2; 2; 0]); ([2; 2; 2; 1], [1; 3; 0]);
   ([3; 2; 2; 1], [1; 2; 1]); ([1; 3; 2; 1], [2; 1; 1]); ([2; 3; 2; 1], [1; 2; 1]);
   ([3; 3; 2; 1], [1; 1; 2]); ([1; 1; 3; 1], [3; 0; 1]); ([2; 1; 3; 1], [2; 1; 1]);
   ([3; 1; 3; 1], [2; 0; 2]); ([1; 2; 3; 1], [2; 1; 1]); ([2; 2; 3; 1], [1; 2; 1]);
   ([3; 2; 3; 1], [1; 1; 2]); ([1; 3; 3; 1], [2; 0; 2]); ([2; 3; 3; 1], [1; 1; 2]);
   ([3; 3; 3; 1], [1; 0; 3]); ([1; 1; 1; 2], [3; 1; 0]); ([2; 1; 1; 2], [2; 2; 0]);
   ([3; 1; 1; 2], [2; 1; 1]); ([1; 2; 1; 2], [2; 2; 0]); ([2; 2; 1; 2], [1; 3; 0]);
   ([3; 2; 1; 2], [1; 2; 1]); ([1; 3; 1; 2], [2; 1; 1]); ([2; 3; 1; 2], [1; 2; 1]);
   ([3; 3; 1; 2], [1; 1; 2]); ([1; 1; 2; 2], [2; 2; 0]); ([2; 1; 2; 2], [1; 3; 0]);
   ([3; 1; 2; 2], [1; 2; 1]); ([1; 2; 2; 2], [1; 3; 0]); ([2; 2; 2; 2], [0; 4; 0]);
   ([3; 2; 2; 2], [0; 3; 1]); ([1; 3; 2; 2], [1; 2; 1]); ([2; 3; 2; 2], [0; 3; 1]);
   ([3; 3; 2; 2], [0; 2; 2]); ([1; 1; 3; 2], [2; 1; 1]); ([2; 1; 3; 2], [1; 2; 1]);
   ([3; 1; 3; 2], [1; 1; 2]); ([1; 2; 3; 2], [1; 2; 1]); ([2; 2; 3; 2], [0; 3; 1]);
   ([3; 2; 3; 2], [0; 2; 2]); ([1; 3; 3; 2], [1; 1; 2]); ([2; 3; 3; 2], [0; 2; 2]);
   ([3; 3; 3; 2], [0; 1; 3]); ([1; 1; 1; 3], [3; 0; 1]); ([2; 1; 1; 3], [2; 1; 1]);
   ([3; 1; 1; 3], [2; 0; 2]); ([1; 2; 1; 3], [2; 1; 1]); ([2; 2; 1; 3], [1; 2; 1]);
   ([3; 2; 1; 3], [1; 1; 2]); ([1; 3; 1; 3], [2; 0; 2]); ([2; 3; 1; 3], [1; 1; 2]);
   ([3; 3; 1; 3], [1; 0; 3]); ([1; 1; 2; 3], [2; 1; 1]); ([2; 1; 2; 3], [1; 2; 1]);
   ([3; 1; 2; 3], [1; 1; 2]); ([1; 2; 2; 3], [1; 2; 1]); ([2; 2; 2; 3], [0; 3; 1]);
   ([3; 2; 2; 3], [0; 2; 2]); ([1; 3; 2; 3], [1; 1; 2]); ([2; 3; 2; 3], [0; 2; 2]);
   ([3; 3; 2; 3], [0; 1; 3]); ([1; 1; 3; 3], [2; 0; 2]); ([2; 1; 3; 3], [1; 1; 2]);
   ([3; 1; 3; 3], [1; 0; 3]); ([1; 2; 3; 3], [1; 1; 2]); ([2; 2; 3; 3], [0; 2; 2]);
   ([3; 2; 3; 3], [0; 1; 3]); ([1; 3; 3; 3], [1; 0; 3]); ([2; 3; 3; 3], [0; 1; 3]);
   ([3; 3; 3; 3], [0; 0; 4])].
Open Scope R_scope.

(** An accumulation loop over 1..n: "do i=1,n; s = body(i,s); end do". *)
Definition loop (n : Z) (body : Z -> R -> R) (s : R) : R := fold_left (fun s i => body i s) (zseq 1 n) s.
(** The intrinsic SUM over 1..n. *)
Definition fsum (n : Z) (f : Z -> R) : R := loop n (fun i s => s + f i) 0.

(** Values and derivatives of the functions of an element at a point: N0(a), N1(i,a), ..., N4(l,k,j,i,a). *)
Record nders := mk_nders {
  n0 : Z -> R;
  n1 : Z -> Z -> R;
  n2 : Z -> Z -> Z -> R;
  n3 : Z -> Z -> Z -> Z -> R;
  n4 : Z -> Z -> Z -> Z -> Z -> R }.

Definition tens_table (dim : Z) : list (list Z * list Z) :=
  if (dim =? 1)%Z then tens_table1 else if (dim =? 2)%Z then tens_table2 else tens_table3.

Fixpoint zlist_eqb (l1 l2 : list Z) : bool :=
  match l1, l2 with
  | [], [] => true
  | x :: l1, y :: l2 => (x =? y)%Z && zlist_eqb l1 l2
  | _, _ => false
  end.

(** The assignment N_k(idx, ia,ja,ka) = iN(.,ia)*jN(.,ja)*kN(.,ka) of the table, if there is one.
    [B d o i] is entry (o,i) of the table iN, jN, kN (d = 1, 2, 3) at the point. *)
Definition tens_entry (dim : Z) (B : Z -> Z -> Z -> R) (idx : list Z) (ia ja ka : Z) (old : R) : R :=
  match find (fun e => zlist_eqb (fst e) idx) (tens_table dim) with
  | Some (_, [oi]) => B 1%Z oi ia
  | Some (_, [oi; oj]) => B 1%Z oi ia * B 2%Z oj ja
  | Some (_, [oi; oj; ok]) => B 1%Z oi ia * B 2%Z oj ja * B 3%Z ok ka
  | _ => old
  end.

(** src/petiga1d.F90:22-91, petiga2d.F90:28-130, petiga3d.F90:32-233 IGA_BasisFuns_1D/2D/3D at one point.
    The arrays are declared N(dim**k, ina*jna*kna) by the caller and N(dim,..,ina,jna,kna) in TensorBasisFuns:
    function a of the element is (ia,ja,ka) in column-major order. *)
Definition node_i (ina a : Z) : Z := (1 + (a-1) mod ina)%Z.
Definition node_j (ina jna a : Z) : Z := (1 + ((a-1) / ina) mod jna)%Z.
Definition node_k (ina jna a : Z) : Z := (1 + (a-1) / (ina*jna))%Z.
Definition basis_funs (dim order : Z) (ina jna : Z) (B : Z -> Z -> Z -> R) (old : nders) : nders :=
  let at_ idx a o := tens_entry dim B idx (node_i ina a) (node_j ina jna a) (node_k ina jna a) o in
  mk_nders (fun a => at_ [] a (n0 old a))
    (fun i a => if (order <? 1)%Z then n1 old i a else at_ [i] a (n1 old i a))
    (fun i j a => if (order <? 2)%Z then n2 old i j a else at_ [i; j] a (n2 old i j a))
    (fun i j k a => if (order <? 3)%Z then n3 old i j k a else at_ [i; j; k] a (n3 old i j k a))
    (fun i j k l a => if (order <? 4)%Z then n4 old i j k l a else at_ [i; j; k; l] a (n4 old i j k l a)).

(** src/petigarat.f90.in:3-57 Rationalize.  The loops over i (and j, k) overwrite R1(i,:), R2(i,j,:), R3(i,j,k,:)
    from the old contents of the same entries only, and the divisions by W0 follow. *)
Definition rationalize (order nen : Z) (W : Z -> R) (N : nders) : nders :=
  let R0a := fun a => W a * n0 N a in
  let W0 := fsum nen R0a in
  let R0 := fun a => R0a a / W0 in
  let W1 := fun i => fsum nen (fun a => W a * n1 N i a) in
  let R1 := fun i a => (W a * n1 N i a - R0 a * W1 i) / W0 in
  let W2 := fun i j => fsum nen (fun a => W a * n2 N i j a) in
  let R2 := fun i j a => (W a * n2 N i j a - R0 a * W2 i j - R1 i a * W1 j - R1 j a * W1 i) / W0 in
  let W3 := fun i j k => fsum nen (fun a => W a * n3 N i j k a) in
  let R3 := fun i j k a =>
    (W a * n3 N i j k a - R0 a * W3 i j k
     - R1 i a * W2 j k - R1 j a * W2 i k - R1 k a * W2 i j
     - R2 j k a * W1 i - R2 i k a * W1 j - R2 i j a * W1 k) / W0 in
  mk_nders R0
    (if (order <? 1)%Z then n1 N else R1)
    (if (order <? 2)%Z then n2 N else R2)
    (if (order <? 3)%Z then n3 N else R3)
    (if (order <? 4)%Z then n4 N else fun _ _ _ _ _ => 0).

(** src/petigamapgeo.f90.in:3-78 GeometryMap: X_k(:,i) = sum over the nodes of X(i,node)*M_k(:,node).
    The result uses the same record, with the coordinate i in the place of the function. *)
Definition geometry_map (order nen : Z) (X : Z -> Z -> R) (M old : nders) : nders :=
  mk_nders (fun i => loop nen (fun a s => s + X i a * n0 M a) 0)
    (fun q i => if (order <? 1)%Z then n1 old q i else loop nen (fun a s => s + X i a * n1 M q a) 0)
    (fun q r i => if (order <? 2)%Z then n2 old q r i else loop nen (fun a s => s + X i a * n2 M q r a) 0)
    (fun q r t i => if (order <? 3)%Z then n3 old q r t i else loop nen (fun a s => s + X i a * n3 M q r t a) 0)
    (fun q r t v i => if (order <? 4)%Z then n4 old q r t v i else loop nen (fun a s => s + X i a * n4 M q r t v a) 0).

(** src/petigadet.f90.in:3-20 Determinant *)
Definition determinant (dim : Z) (A : Z -> Z -> R) : R :=
  let a i j := A i%Z j%Z in
  if (dim =? 1)%Z then a 1%Z 1%Z
  else if (dim =? 2)%Z then a 1%Z 1%Z * a 2%Z 2%Z - a 2%Z 1%Z * a 1%Z 2%Z
  else if (dim =? 3)%Z then
    a 1%Z 1%Z * (a 2%Z 2%Z * a 3%Z 3%Z - a 3%Z 2%Z * a 2%Z 3%Z)
    - a 2%Z 1%Z * (a 1%Z 2%Z * a 3%Z 3%Z - a 3%Z 2%Z * a 1%Z 3%Z)
    + a 3%Z 1%Z * (a 1%Z 2%Z * a 2%Z 3%Z - a 2%Z 2%Z * a 1%Z 3%Z)
  else 0.

(** src/petigainv.f90.in:3-33 Inverse *)
Definition inverse (dim : Z) (detA : R) (A : Z -> Z -> R) (i j : Z) : R :=
  if (dim =? 1)%Z then 1 / detA
  else if (dim =? 2)%Z then
    (match i, j with
     | 1%Z, 1%Z => A 2%Z 2%Z
     | 2%Z, 1%Z => - A 2%Z 1%Z
     | 1%Z, 2%Z => - A 1%Z 2%Z
     | 2%Z, 2%Z => A 1%Z 1%Z
     | _, _ => 0
     end) / detA
  else if (dim =? 3)%Z then
    (match i, j with
     | 1%Z, 1%Z => A 2%Z 2%Z * A 3%Z 3%Z - A 2%Z 3%Z * A 3%Z 2%Z
     | 2%Z, 1%Z => - (A 2%Z 1%Z * A 3%Z 3%Z) + A 2%Z 3%Z * A 3%Z 1%Z
     | 3%Z, 1%Z => A 2%Z 1%Z * A 3%Z 2%Z - A 2%Z 2%Z * A 3%Z 1%Z
     | 1%Z, 2%Z => - (A 1%Z 2%Z * A 3%Z 3%Z) + A 1%Z 3%Z * A 3%Z 2%Z
     | 2%Z, 2%Z => A 1%Z 1%Z * A 3%Z 3%Z - A 1%Z 3%Z * A 3%Z 1%Z
     | 3%Z, 2%Z => - (A 1%Z 1%Z * A 3%Z 2%Z) + A 1%Z 2%Z * A 3%Z 1%Z
     | 1%Z, 3%Z => A 1%Z 2%Z * A 2%Z 3%Z - A 1%Z 3%Z * A 2%Z 2%Z
     | 2%Z, 3%Z => - (A 1%Z 1%Z * A 2%Z 3%Z) + A 1%Z 3%Z * A 2%Z 1%Z
     | 3%Z, 3%Z => A 1%Z 1%Z * A 2%Z 2%Z - A 1%Z 2%Z * A 2%Z 1%Z
     | _, _ => 0
     end) / detA
  else 0.

(** Derivatives of the parameters with respect to the coordinates, E1(nsd,dim), ..., E4(nsd,..,nsd,dim), and dX. *)
Record inv_map := mk_inv_map {
  e_det : R;
  e1 : Z -> Z -> R;
  e2 : Z -> Z -> Z -> R;
  e3 : Z -> Z -> Z -> Z -> R;
  e4 : Z -> Z -> Z -> Z -> Z -> R }.

(** src/petigamapinv.f90.in:3-74 InverseMap (dim = nsd) *)
Definition inverse_map (dim order : Z) (X : nders) (old : inv_map) : inv_map :=
  let dX := determinant dim (n1 X) in
  let E1 := inverse dim dX (n1 X) in
  let E2 := fun j i c =>
    loop dim (fun k => loop dim (fun a => loop dim (fun b s => s - n2 X b a k * E1 i a * E1 j b * E1 k c))) 0 in
  let E3 := fun k j i d =>
    loop dim (fun a => loop dim (fun b => loop dim (fun l s =>
      loop dim (fun c s => s - n3 X c b a l * E1 i a * E1 j b * E1 k c * E1 l d) s
      - n2 X b a l * (E1 i a * E2 k j b + E1 j b * E2 k i a + E1 k b * E2 j i a) * E1 l d))) 0 in
  mk_inv_map
    (if (order <? 1)%Z then e_det old else dX)
    (if (order <? 1)%Z then e1 old else E1)
    (if (order <? 2)%Z then e2 old else E2)
    (if (order <? 3)%Z then e3 old else E3)
    (if (order <? 4)%Z then e4 old else fun _ _ _ _ _ => 0).

(** src/petigamapshf.f90.in:3-84 ShapeFunctions (dim = nsd), with N(0) copied from the basis values
    (petigaelem.c:994). *)
Definition shape_functions (dim order : Z) (E : inv_map) (N old : nders) : nders :=
  mk_nders (n0 N)
    (fun i n => if (order <? 1)%Z then n1 old i n else loop dim (fun a s => s + n1 N a n * e1 E i a) 0)
    (fun j i n => if (order <? 2)%Z then n2 old j i n else
       loop dim (fun a s => loop dim (fun b s => s + n2 N b a n * e1 E i a * e1 E j b) s + n1 N a n * e2 E j i a) 0)
    (fun k j i n => if (order <? 3)%Z then n3 old k j i n else
       loop dim (fun a s =>
         loop dim (fun b s =>
           loop dim (fun c s => s + n3 N c b a n * e1 E i a * e1 E j b * e1 E k c) s
           + n2 N b a n * (e1 E i a * e2 E k j b + e1 E j b * e2 E k i a + e1 E k b * e2 E j i a)) s
         + n1 N a n * e3 E k j i a) 0)
    (fun l k j i n => if (order <? 4)%Z then n4 old l k j i n else 0).

(** src/petigaelem.c:794-1040 IGAElementBuildTabulation at one quadrature point, dim = nsd: basis functions,
    rationalisation when there are weights, and with a geometry the map, its inverse and the shape functions;
    without a geometry the shape functions are the basis functions (petigaelem.c:549-561). *)
Definition tabulate (dim order ina jna kna : Z) (B : Z -> Z -> Z -> R) (weights : option (Z -> R))
    (geometry : option (Z -> Z -> R)) (oldN oldX oldS : nders) (oldE : inv_map) : nders * nders * nders * inv_map :=
  let nen := (ina * jna * kna)%Z in
  let M := basis_funs dim order ina jna B oldN in
  let M := match weights with Some W => rationalize order nen W M | None => M end in
  match geometry with
  | Some C =>
      let X := geometry_map order nen C M oldX in
      let E := inverse_map dim order X oldE in
      (M, X, shape_functions dim order E M oldS, E)
  | None => (M, oldX, M, oldE)
  end.

(** src/petigaval.F90:45-99 IGA_GetNormal: (dS, N) *)
Definition get_normal (sqrt : R -> R) (dim axis side : Z) (F : Z -> Z -> R) : R * (Z -> R) :=
  let '(dS, N) :=
    if (dim =? 3)%Z then
      let s := fun j => if (axis =? 0)%Z then F 2%Z j else if (axis =? 1)%Z then F 3%Z j else if (axis =? 2)%Z then F 1%Z j else 0 in
      let t := fun j => if (axis =? 0)%Z then F 3%Z j else if (axis =? 1)%Z then F 1%Z j else if (axis =? 2)%Z then F 2%Z j else 0 in
      let N := fun j => match j with
                        | 1%Z => s 2%Z * t 3%Z - s 3%Z * t 2%Z
                        | 2%Z => s 3%Z * t 1%Z - s 1%Z * t 3%Z
                        | _ => s 1%Z * t 2%Z - s 2%Z * t 1%Z
                        end in
      let dS := sqrt (fsum 3 (fun j => N j * N j)) in (dS, fun j => N j / dS)
    else if (dim =? 2)%Z then
      let t := fun j => if (axis =? 0)%Z then F 2%Z j else if (axis =? 1)%Z then - F 1%Z j else 0 in
      let N := fun j => match j with 1%Z => t 2%Z | _ => - t 1%Z end in
      let dS := sqrt (fsum 2 (fun j => N j * N j)) in (dS, fun j => N j / dS)
    else (1, fun _ => 1) in
  (dS, if (side =? 0)%Z then fun j => - N j else N).

(** src/petigaval.F90:146-163,186-264 IGA_EvaluateReal, IGA_GetValue, IGA_GetGrad, IGA_GetHess, IGA_GetDer3:
    V(:,i) accumulates N(:,a)*U(i,a); IGA_GetDel2 accumulates N(i,i,a)*U(c,a). *)
Definition eval_field (nen : Z) (N U : Z -> R) : R := loop nen (fun a s => s + N a * U a) 0.
Definition eval_del2 (nen dim : Z) (N : Z -> Z -> Z -> R) (U : Z -> R) : R :=
  loop nen (fun a => loop dim (fun i s => s + N i i a * U a)) 0.

(** src/petigaelem.c:1012-1023 IGAElementBuildTabulation: area element and normal at a boundary point; [X1] is
    Some Jacobian when there is a geometry with dim = nsd. *)
Definition boundary_normal (sqrt : R -> R) (dim axis side : Z) (X1 : option (Z -> Z -> R)) : R * (Z -> R) :=
  match X1 with
  | Some F => get_normal sqrt dim axis side F
  | None => (1, fun j => if (j =? axis + 1)%Z then (if (side =? 0)%Z then -1 else 1) else 0)
  end.

(** src/petigaval.F90:114-124 IGA_GetGradGeomMap: F(a,i) *)
Definition get_grad (nen : Z) (N : Z -> Z -> R) (C : Z -> Z -> R) (a i : Z) : R := fsum nen (fun n => N a n * C i n).

(** src/petigaval.F90:126-146 IGA_GetInvGradGeomMap: G(i,a) *)
Definition get_inv_grad (nen nsd dim : Z) (N : Z -> Z -> R) (C : Z -> Z -> R) (i a : Z) : R :=
  let F := fun i a => fsum nen (fun n => C i n * N a n) in
  let M := fun a b => fsum nsd (fun i => F i a * F i b) in
  let invM := inverse dim (determinant dim M) M in
  fsum dim (fun b => invM a b * F i b).

(** src/petigapoint.c:242-267 IGAPointFormGradGeomMap: F(a,i). [geometry] holds the control points, [X1] and [U1] the
    arrays mapX[1] and mapU[1] of the point, L the element Jacobians of the axes (IGAPointFormScale, 208-223). *)
Definition form_grad (nen nsd dim : Z) (L : Z -> R) (geometry : option (Z -> Z -> R)) (N1 X1 : Z -> Z -> R) (a i : Z) : R :=
  match geometry with
  | Some C => (if (dim =? nsd)%Z then X1 a i else get_grad nen N1 C a i) * L a
  | None => if (a =? i)%Z then L a else 0
  end.

(** src/petigapoint.c:269-294 IGAPointFormInvGradGeomMap: G(i,a) *)
Definition form_inv_grad (nen nsd dim : Z) (L : Z -> R) (geometry : option (Z -> Z -> R)) (N1 U1 : Z -> Z -> R) (i a : Z) : R :=
  match geometry with
  | Some C => (if (dim =? nsd)%Z then U1 i a else get_inv_grad nen nsd dim N1 C i a) / L a
  | None => if (i =? a)%Z then 1 / L a else 0
  end.
