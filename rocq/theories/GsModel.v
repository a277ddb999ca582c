(** The vectors that -iga_set_bddc_minimal puts into the near null space of a matrix
    (src/petigapcbddc.c:3-19, 306-430).  Definitions only.
    A vector is a function of the global entry, N entries, real scalars, exact arithmetic.  Not modelled: the contents
    of the mask (lines 330-407: arbitrary here, see MkModel.v), the views, and how PCBDDC uses the near null space. *)
From Coq Require Import ZArith List Bool Reals.
From Verif Require Import Prelude AxisInitModel.
Import ListNotations.
Open Scope Z_scope.

Definition vec := Z -> R.

Section Vectors.
  Variable N : Z.

  (** PETSc: VecDot(x,y) on real scalars. *)
  Definition VecDot (x y : vec) : R := fold_left (fun s t => s + x t * y t)%R (zseq 0 N) 0%R.
  (** PETSc: VecMDot(x,n,y,val) writes val[j] = y_j . x for j < n. *)
  Definition VecMDot (x : vec) (n : Z) (y : Z -> vec) (val : Z -> R) : Z -> R :=
    fold_left (fun a j => upd a j (VecDot x (y j))) (zseq 0 n) val.
  (** PETSc: VecMAXPY(y,n,alpha,x) : y += sum of alpha[j] x_j for j < n. *)
  Definition VecMAXPY (y : vec) (n : Z) (alpha : Z -> R) (x : Z -> vec) : vec :=
    fun t => fold_left (fun s j => s + alpha j * x j t)%R (zseq 0 n) (y t).
  (** PETSc: VecNormalize(x,NULL): a vector of norm 0 is left as it is. *)
  Definition VecNormalize (x : vec) : vec :=
    let norm := sqrt (VecDot x x) in
    if Req_EM_T norm 0 then x else fun t => (1 / norm * x t)%R.

  (** src/petigapcbddc.c:12-15, the line of the negation *)
  Definition negate (i : Z) (alphas : Z -> R) : Z -> R :=
    fold_left (fun a j => upd a j (a j * -1)%R) (zseq 0 i) alphas.
  (** src/petigapcbddc.c:11-16: one turn of the loop *)
  Definition gs_step (st : (Z -> vec) * (Z -> R)) (i : Z) : (Z -> vec) * (Z -> R) :=
    let (vecs, alphas) := st in
    let alphas := VecMDot (vecs i) i vecs alphas in
    let alphas := negate i alphas in
    let vecs := upd vecs i (VecMAXPY (vecs i) i alphas vecs) in
    let vecs := upd vecs i (VecNormalize (vecs i)) in
    (vecs, alphas).
  (** src/petigapcbddc.c:3-19; [heap] is what PetscMalloc1 returns *)
  Definition OrthonormalizeVecs_Private (heap : Z -> R) (n : Z) (vecs : Z -> vec) : Z -> vec :=
    fst (fold_left gs_step (zseq 0 n) (vecs, heap)).

  (** src/petigapcbddc.c:328-333, 409-419: the vectors before they are made orthonormal.  [cnst]: nnsp_has_cnst;
      [nnsp], [size]: the vectors of the near null space the matrix has; [vol], [nv]: minimalv. *)
  Definition near_vectors (mask : vec) (cnst : bool) (size : Z) (nnsp : Z -> vec) (nv : Z) (vol : Z -> Z)
    : status * (Z -> vec) :=
    let s := if cnst then 1 else 0 in
    let v := fun _ : Z => (fun _ : Z => 0%R) in
    let v := if cnst then upd v 0 mask else v in
    let v := fold_left (fun v i => upd v (i + s) (fun t => (nnsp i t * mask t)%R)) (zseq 0 size) v in
    fold_left (fun st i =>
      match st with
      | (Ok, v) => if (vol i <? 0) || (vol i >=? size) then (ErrArg, v) else (Ok, upd v (i + s + size) (nnsp (vol i)))
      | e => e
      end) (zseq 0 nv) (Ok, v).
  (** src/petigapcbddc.c:319-329, 408-421: the near null space that is set; status, number of vectors, vectors.
      Without a near null space (line 320) the constants are taken.  [nv], [vol]: the numbers given with
      -iga_set_bddc_minimal_volume (nv = 0 without the option), of which PetscOptionsGetIntArray reads at most size
      (line 325). *)
  Definition minimal_space (heap : Z -> R) (mask : vec) (given : option (bool * Z * (Z -> vec))) (nv : Z) (vol : Z -> Z)
    : status * (Z * (Z -> vec)) :=
    let '(cnst, size, nnsp) := match given with Some x => x | None => (true, 0, fun _ _ => 0%R) end in
    let nv := Z.min nv size in
    let n := size + (if cnst then 1 else 0) + nv in
    match near_vectors mask cnst size nnsp nv vol with
    | (Ok, v) => (Ok, (n, OrthonormalizeVecs_Private heap n v))
    | (e, v) => (e, (n, v))
    end.
End Vectors.
