(** Model of the Lagrange basis of IGA_BASIS_LAGRANGE and IGA_BASIS_SPECTRAL (src/petigalgb.f90.in,
    src/petigabsp.F90, src/petigaglp.f90.in).  Definitions only.  Exact arithmetic over R; the constants of the
    Gauss-Lobatto nodes go through [lit] as in RuleModel. *)
From Coq Require Import ZArith List Bool Reals.
From Verif Require Import Prelude RealOrd.
Import ListNotations.
Open Scope Z_scope.

Section Nodes.
  Context {T : Type}.
  Variables (lit : Z -> T) (neg : T -> T).
  (** src/petigaglp.f90.in:10-73 the select statement; None is the default case. *)
  Definition lobatto_nodes (n : Z) : option (list T) :=
    match n with
    | 2 =>
        let x0 := neg (lit 1000000000000000000000000000000000000) in
        let x1 := neg x0 in
        Some [x0; x1]
    | 3 =>
        let x0 := neg (lit 1000000000000000000000000000000000000) in
        let x1 := lit 0 in
        let x2 := neg x0 in
        Some [x0; x1; x2]
    | 4 =>
        let x0 := neg (lit 1000000000000000000000000000000000000) in
        let x1 := neg (lit 447213595499957939281834733746255247) in
        let x2 := neg x1 in
        let x3 := neg x0 in
        Some [x0; x1; x2; x3]
    | 5 =>
        let x0 := neg (lit 1000000000000000000000000000000000000) in
        let x1 := neg (lit 654653670707977143798292456246858356) in
        let x2 := lit 0 in
        let x3 := neg x1 in
        let x4 := neg x0 in
        Some [x0; x1; x2; x3; x4]
    | 6 =>
        let x0 := neg (lit 1000000000000000000000000000000000000) in
        let x1 := neg (lit 765055323929464692851002973959338150) in
        let x2 := neg (lit 285231516480645096314150994040879072) in
        let x3 := neg x2 in
        let x4 := neg x1 in
        let x5 := neg x0 in
        Some [x0; x1; x2; x3; x4; x5]
    | 7 =>
        let x0 := neg (lit 1000000000000000000000000000000000000) in
        let x1 := neg (lit 830223896278566929872032213967465140) in
        let x2 := neg (lit 468848793470714213803771881908766329) in
        let x3 := lit 0 in
        let x4 := neg x2 in
        let x5 := neg x1 in
        let x6 := neg x0 in
        Some [x0; x1; x2; x3; x4; x5; x6]
    | 8 =>
        let x0 := neg (lit 1000000000000000000000000000000000000) in
        let x1 := neg (lit 871740148509606615337445761220663438) in
        let x2 := neg (lit 591700181433142302144510731397953190) in
        let x3 := neg (lit 209299217902478868768657260345351255) in
        let x4 := neg x3 in
        let x5 := neg x2 in
        let x6 := neg x1 in
        let x7 := neg x0 in
        Some [x0; x1; x2; x3; x4; x5; x6; x7]
    | 9 =>
        let x0 := neg (lit 1000000000000000000000000000000000000) in
        let x1 := neg (lit 899757995411460157312345244418337958) in
        let x2 := neg (lit 677186279510737753445885427091342451) in
        let x3 := neg (lit 363117463826178158710752068708659213) in
        let x4 := lit 0 in
        let x5 := neg x3 in
        let x6 := neg x2 in
        let x7 := neg x1 in
        let x8 := neg x0 in
        Some [x0; x1; x2; x3; x4; x5; x6; x7; x8]
    | 10 =>
        let x0 := neg (lit 1000000000000000000000000000000000000) in
        let x1 := neg (lit 919533908166458813828932660822338134) in
        let x2 := neg (lit 738773865105505075003106174859830725) in
        let x3 := neg (lit 477924949810444495661175092731257998) in
        let x4 := neg (lit 165278957666387024626219765958173533) in
        let x5 := neg x4 in
        let x6 := neg x3 in
        let x7 := neg x2 in
        let x8 := neg x1 in
        let x9 := neg x0 in
        Some [x0; x1; x2; x3; x4; x5; x6; x7; x8; x9]
    | _ => None
    end.
End Nodes.

Open Scope R_scope.

(** src/petigaglp.f90.in:74-79 the default case and the map to [u0,u1]. *)
Definition lobatto_points (lit : Z -> R) (n : Z) (u0 u1 : R) : Z -> R :=
  let X := match lobatto_nodes lit Ropp n with Some l => fun i => nth (Z.to_nat i) l 0 | None => fun _ => 0 end in
  fun i => (X i + 1) * (u1 - u0) / 2 + u0.

(** src/petigabsp.F90:38-47 NewtonCotesPoints *)
Definition newton_cotes (n : Z) (u0 u1 : R) : Z -> R := fun i => u0 + (u1 - u0) * IZR i / IZR (n-1).

Section Lagrange.
  Variables (xx : R) (p : Z) (X : Z -> R).

  (** The innermost loop (src/petigalgb.f90.in:14-18, 28-31, 46-49, 70-73): [skip] are the indices besides m on
      which the loop cycles. *)
  Definition lag_prod (m : Z) (skip : list Z) : R :=
    fold_left (fun lp i => if existsb (Z.eqb i) (m :: skip) then lp else lp * (xx - X i) / (X m - X i)) (zseq 0 (p+1)) 1.
  (** The loops accumulating Ls1, Ls2, Ls3 around a term (src/petigalgb.f90.in:26-34, 42-53, 66-80). *)
  Definition lag_sum (m : Z) (skip : list Z) (term : list Z -> R) : R :=
    fold_left (fun s j => if existsb (Z.eqb j) (m :: skip) then s else s + term (skip ++ [j]) / (X m - X j)) (zseq 0 (p+1)) 0.

  (** src/petigalgb.f90.in:3-81 LagrangeBasisFunsDers.  [B0]: B on entry; rows above min(d,3) keep it. *)
  Definition lagrange_ders (d : Z) (B0 : Z -> Z -> R) : Z -> Z -> R := fun o m =>
    if (0 <=? m)%Z && (m <=? p)%Z then
      if (o =? 0)%Z then lag_prod m []
      else if (o =? 1)%Z && (1 <=? d)%Z then lag_sum m [] (fun s => lag_prod m s)
      else if (o =? 2)%Z && (2 <=? d)%Z then lag_sum m [] (fun s => lag_sum m s (fun s => lag_prod m s))
      else if (o =? 3)%Z && (3 <=? d)%Z then lag_sum m [] (fun s => lag_sum m s (fun s => lag_sum m s (fun s => lag_prod m s)))
      else B0 o m
    else B0 o m.
End Lagrange.

(** src/petigabsp.F90:19-36 IGA_Basis_Lagrange and :51-66 IGA_Basis_Spectral; [nodes] computes the p+1 points
    between two values.  [B0]: contents of the array on entry (kept above row 0 when p = 0). *)
Definition basis_nodal (nodes : Z -> R -> R -> Z -> R) (k : Z) (uu : R) (p d : Z) (U : Z -> R) (B0 : Z -> Z -> R) : Z -> Z -> R :=
  if (p =? 0)%Z then fun o a => if (o =? 0)%Z && (a =? 0)%Z then 1 else B0 o a
  else lagrange_ders uu p (nodes (p+1)%Z (U k) (U (k+1)%Z)) d (fun _ _ => 0).
Definition basis_lagrange := basis_nodal newton_cotes.
Definition basis_spectral (lit : Z -> R) := basis_nodal (lobatto_points lit).
