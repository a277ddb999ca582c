(** Model of IGAAxisInitBreaks and IGAAxisInitUniform (src/petigaaxis.c), exact real arithmetic. *)
From Coq Require Import ZArith List Bool Reals.
From Verif Require Import Prelude RealOrd AxisModel.
Import ListNotations.
Open Scope Z_scope.

(** Array write. *)
Definition upd {A} (U : Z -> A) (i : Z) (v : A) : Z -> A := fun x => if x =? i then v else U x.

(** src/petigaaxis.c:354-357 (and 430-433): [for (k=0;k<=p;k++) { U[k]=u0; U[m-k]=ur; }]. *)
Definition write_open (p m : Z) (u0 ur : R) (U : Z -> R) : Z -> R :=
  fold_left (fun U k => upd (upd U k u0) (m-k) ur) (zseq 0 (p+1)) U.

(** src/petigaaxis.c:358-361 (and 434-437): interior breaks i=1..r-1, each written s times at the
    running position k (which starts at p+1). *)
Definition write_interior (s r : Z) (brk : Z -> R) (k0 : Z) (U : Z -> R) : (Z -> R) * Z :=
  fold_left (fun Uk i =>
    fold_left (fun (Uk : (Z -> R) * Z) (_ : Z) => (upd (fst Uk) (snd Uk) (brk i), snd Uk + 1))
              (zseq 0 s) Uk)
    (zseq 1 (r-1)) (U, k0).

(** src/petigaaxis.c:362-367 (and 438-443): the sequential periodic loop, reading entries it may
    already have overwritten. *)
Definition write_periodic (p m n C : Z) (U : Z -> R) : Z -> R :=
  fold_left (fun U k =>
    let U1 := upd U (C-k) (U p - U (m-p)%Z + U (n-k)%Z)%R in
    upd U1 (m-C+k) (U1 (m-p)%Z - U1 p + U1 (p+1+k)%Z)%R)
    (zseq 0 (C+1)) U.

(** Common body of src/petigaaxis.c:341-376 and 417-452. [U0] is whatever the (re)allocated array
    holds before it is written. *)
Definition init_body (brk : Z -> R) (r C : Z) (U0 : Z -> R) (a : axis Rord) : axis Rord :=
  let p := ax_p a in
  let s := p - C in
  let m := 2*(p+1) + (r-1)*s - 1 in
  let n := m - p - 1 in
  let U1 := write_open p m (brk 0) (brk r) U0 in
  let U2 := fst (write_interior s r brk (p+1) U1) in
  let U3 := if ax_periodic a then write_periodic p m n C U2 else U2 in
  @mk_axis Rord (ax_periodic a) p m U3
    (if ax_periodic a then n - C else n + 1)
    r (Some (map (fun i => p + i*s) (zseq 0 r))).

Definition PETSC_DECIDE : Z := -1.

(** src/petigaaxis.c:323-378 IGAAxisInitBreaks(axis,nu,u,C). *)
Definition axis_init_breaks (nu : Z) (u : Z -> R) (C0 : Z) (U0 : Z -> R) (a : axis Rord)
  : status * axis Rord :=
  let C := if C0 =? PETSC_DECIDE then ax_p a - 1 else C0 in
  if ax_p a <? 1 then (ErrOrder, a)
  else if nu <? 2 then (ErrRange, a)
  else if existsb (fun i => negb (Rltb (u (i-1)) (u i))) (zseq 1 (nu-1)) then (ErrRange, a)
  else if (C <? 0) || (ax_p a <=? C) then (ErrArg, a)
  else (Ok, init_body u (nu-1) C U0 a).

(** The value Ui + i/N*(Uf-Ui) written at src/petigaaxis.c:436; the end values are Ui and Uf
    themselves (lines 431-432), which is the same number in exact arithmetic except that the code
    does not recompute it. *)
Definition uniform_break (N : Z) (Ui Uf : R) (i : Z) : R :=
  if i =? 0 then Ui else if i =? N then Uf
  else (Ui + IZR i / IZR N * (Uf - Ui))%R.

(** src/petigaaxis.c:401-454 IGAAxisInitUniform(axis,N,Ui,Uf,C). *)
Definition axis_init_uniform (N : Z) (Ui Uf : R) (C0 : Z) (U0 : Z -> R) (a : axis Rord)
  : status * axis Rord :=
  let C := if C0 =? PETSC_DECIDE then ax_p a - 1 else C0 in
  if ax_p a <? 1 then (ErrOrder, a)
  else if N <? 1 then (ErrArg, a)
  else if negb (Rltb Ui Uf) then (ErrArg, a)
  else if (C <? 0) || (ax_p a <=? C) then (ErrArg, a)
  else (Ok, init_body (uniform_break N Ui Uf) N C U0 a).
