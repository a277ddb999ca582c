(** The Fortran module PetIGA (src/petigaftn.F90): access to the arrays of a point and evaluation of fields.
    Definitions only. *)
From Coq Require Import ZArith List Bool Reals.
From Verif Require Import Prelude.
Import ListNotations.
Open Scope Z_scope.

(** A Fortran array: its memory and its extents; element (i1,...,ik) counts from one, the first index
    varies fastest. *)
Record farr (A : Type) := mk_farr { fa_mem : Z -> A; fa_shape : list Z }.
Arguments mk_farr {A}. Arguments fa_mem {A}. Arguments fa_shape {A}.
Fixpoint col (shape idx : list Z) : Z :=
  match shape, idx with d :: s, i :: t => (i - 1) + d * col s t | _, _ => 0 end.
Definition at_ {A} (X : farr A) (idx : list Z) : A := fa_mem X (col (fa_shape X) idx).
(** the intrinsic size(X,k) *)
Definition size_ {A} (X : farr A) (k : nat) : Z := nth (k - 1) (fa_shape X) 0.

(** include/petiga.h:644-703 struct _n_IGAPoint as src/petigaftn.F90:68-107 declares it: the members used
    below; a pointer is its memory or null. *)
Record point := mk_point { p_nen : Z; p_dof : Z; p_dim : Z; p_nsd : Z; p_npd : Z; p_atboundary : Z; p_boundary_id : Z;
                           p_rational : option (Z -> R); p_geometry : option (Z -> R); p_property : option (Z -> R);
                           p_normal : Z -> R; p_basis : nat -> Z -> R; p_shape : nat -> Z -> R }.

(** src/petigaftn.F90:231-262 IGA_Rational, IGA_Geometry, IGA_Property: null when the pointer is. *)
Definition IGA_Rational (p : point) : option (farr R) := option_map (fun m => mk_farr m [p_nen p]) (p_rational p).
Definition IGA_Geometry (p : point) : option (farr R) := option_map (fun m => mk_farr m [p_nsd p; p_nen p]) (p_geometry p).
Definition IGA_Property (p : point) : option (farr R) := option_map (fun m => mk_farr m [p_npd p; p_nen p]) (p_property p).

(** src/petigaftn.F90:264-304 IGA_GeomMap, IGA_GradGeomMap, IGA_InvGradGeomMap: the arrays the C functions of
    src/petigapoint.c:295-305 fill, [X], [F], [G] being their memory afterwards. *)
Definition IGA_GeomMap (p : point) (X : Z -> R) : farr R := mk_farr X [p_nsd p].
Definition IGA_GradGeomMap (p : point) (F : Z -> R) : farr R := mk_farr F [p_dim p; p_nsd p].
Definition IGA_InvGradGeomMap (p : point) (G : Z -> R) : farr R := mk_farr G [p_nsd p; p_dim p].

(** src/petigaftn.F90:306-312 IGA_Normal *)
Definition IGA_Normal (p : point) : farr R := mk_farr (p_normal p) [p_dim p].

(** src/petigaftn.F90:314-329 IGA_AtBoundary: result, axis, side.  Fortran's / and mod truncate, as C's. *)
Definition IGA_AtBoundary (p : point) : bool * Z * Z :=
  if negb (p_atboundary p =? 0) then (true, Z.quot (p_boundary_id p) 2, Z.rem (p_boundary_id p) 2)
  else (false, -1, -1).

(** src/petigaftn.F90:331-409 IGA_Basis0-4 and IGA_Shape0-4 *)
Definition IGA_Basis (k : nat) (p : point) : farr R := mk_farr (p_basis p k) (repeat (p_dim p) k ++ [p_nen p]).
Definition IGA_Shape (k : nat) (p : point) : farr R := mk_farr (p_shape p k) (repeat (p_dim p) k ++ [p_nen p]).

(** src/petigaftn.F90:414-425,440-451,468-478,494-504,520-530 IGA_Shape_Der0_S ... Der4_S: they differ in the
    number of colons only.  [idx] are the indices the colons range over. *)
Definition Shape_Der_S (N U : farr R) : list Z -> R :=
  fold_left (fun V a idx => V idx + at_ N (idx ++ [a]) * at_ U [a])%R (zseq 1 (size_ U 1)) (fun _ => 0%R).
(** src/petigaftn.F90:427-438,453-466,480-492,506-518,532-544 IGA_Shape_Der0_V ... Der4_V: V(:,c) *)
Definition Shape_Der_V (N U : farr R) : list Z -> Z -> R :=
  fold_left (fun V a =>
    fold_left (fun V c idx c' => if c' =? c then (V idx c + at_ N (idx ++ [a]) * at_ U [c; a])%R else V idx c')
              (zseq 1 (size_ U 1)) V) (zseq 1 (size_ U 2)) (fun _ _ => 0%R).
(** src/petigaftn.F90:546-558 IGA_Shape_Div *)
Definition Shape_Div (N U : farr R) : R :=
  fold_left (fun V a => fold_left (fun V i => V + at_ N [i; a] * at_ U [i; a])%R (zseq 1 (size_ N 1)) V)
            (zseq 1 (size_ U 2)) 0%R.
(** src/petigaftn.F90:560-572 IGA_Shape_Del2_S *)
Definition Shape_Del2_S (N U : farr R) : R :=
  fold_left (fun V a => fold_left (fun V i => V + at_ N [i; i; a] * at_ U [a])%R (zseq 1 (size_ N 1)) V)
            (zseq 1 (size_ U 1)) 0%R.
(** src/petigaftn.F90:574-588 IGA_Shape_Del2_V *)
Definition Shape_Del2_V (N U : farr R) : Z -> R :=
  fold_left (fun V a => fold_left (fun V c => fold_left (fun V i c' =>
      if c' =? c then (V c + at_ N [i; i; a] * at_ U [c; a])%R else V c') (zseq 1 (size_ N 1)) V)
    (zseq 1 (size_ U 1)) V) (zseq 1 (size_ U 2)) (fun _ => 0%R).

(** src/petigaftn.F90:596-698 IGA_Point_Der0_S ... IGA_Point_Del2_V: the same with the shape functions of the
    point.  IGA_Point_Div declares its result V(DIM): the scalar is stored in every element. *)
Definition Point_Der_S (k : nat) (p : point) (U : farr R) : list Z -> R := Shape_Der_S (IGA_Shape k p) U.
Definition Point_Der_V (k : nat) (p : point) (U : farr R) : list Z -> Z -> R := Shape_Der_V (IGA_Shape k p) U.
Definition Point_Div (p : point) (U : farr R) : Z -> R := fun _ => Shape_Div (IGA_Shape 1 p) U.
Definition Point_Del2_S (p : point) (U : farr R) : R := Shape_Del2_S (IGA_Shape 2 p) U.
Definition Point_Del2_V (p : point) (U : farr R) : Z -> R := Shape_Del2_V (IGA_Shape 2 p) U.

(** With complex scalars the properties are complex in C and real in IGA_Property: the real numbers in the
    memory of an array of complex numbers. *)
Definition real_words (x : Z -> R * R) : Z -> R := fun w => if w mod 2 =? 0 then fst (x (w / 2)) else snd (x (w / 2)).
