(** Model of the boundary condition tables (src/petigaform.c) and of their application to element
    vectors and matrices (src/petigaelem.c).  Definitions only. *)
From Coq Require Import ZArith List Bool Reals.
From Verif Require Import Prelude Box AxisInitModel.
Import ListNotations.
Open Scope Z_scope.

(** Find-or-append on parallel arrays (key[k], value[k]), k < count. *)
Fixpoint assoc_set {V} (key : Z) (v : V) (l : list (Z * V)) : list (Z * V) :=
  match l with
  | [] => [(key, v)]
  | (k, w) :: l' => if k =? key then (key, v) :: l' else (k, w) :: assoc_set key v l'
  end.
(** Same, accumulating. *)
Fixpoint assoc_add (key : Z) (v : R) (l : list (Z * R)) : list (Z * R) :=
  match l with
  | [] => [(key, 0 + v)%R]
  | (k, w) :: l' => if k =? key then (key, (w + v)%R) :: l' else (k, w) :: assoc_add key v l'
  end.

(** * Tables *)
(** include/petiga.h:220-225 struct _IGAFormBC as the list of its [count] (field, value) entries;
    include/petiga.h:258-268 struct _p_IGAForm: value[3][2], load[3][2], visit[3][2], dof. *)
Record form (V : Type) := mk_form {
  fm_dof : Z; fm_value : Z -> Z -> list (Z * V); fm_load : Z -> Z -> list (Z * V); fm_visit : Z -> Z -> bool }.
Arguments mk_form {V}. Arguments fm_dof {V}. Arguments fm_value {V}. Arguments fm_load {V}. Arguments fm_visit {V}.

Definition set2 {A} (f : Z -> Z -> A) (a s : Z) (x : A) : Z -> Z -> A :=
  fun a' s' => if (a' =? a) && (s' =? s) then x else f a' s'.

(** src/petigaform.c:94-98 IGAFormCheckArg *)
Definition check_arg (x m : Z) : bool := (0 <=? x) && (x <? m).

(** The API calls that change a table. *)
Inductive bc_op (V : Type) :=
| SetValue (axis side field : Z) (v : V)
| SetLoad (axis side field : Z) (v : V)
| SetForm (axis side : Z) (flag : bool)
| Clear (axis side : Z).
Arguments SetValue {V}. Arguments SetLoad {V}. Arguments SetForm {V}. Arguments Clear {V}.

(** src/petigaform.c:112-152 and the argument checks of 324-365 (dim and dof are those of the IGA, checked
    only when already set). *)
Definition bc_step {V} (dim dof : Z) (op : bc_op V) (f : form V) : status * form V :=
  match op with
  | SetValue a s c v =>
      if (0 <? dim) && negb (check_arg a dim) then (ErrRange, f)
      else if (0 <? dof) && negb (check_arg c dof) then (ErrRange, f)
      else if negb (check_arg a 3) then (ErrRange, f)
      else if negb (check_arg s 2) then (ErrRange, f)
      else if negb (check_arg c 64) then (ErrRange, f)
      else (Ok, mk_form (Z.max (fm_dof f) (c+1)) (set2 (fm_value f) a s (assoc_set c v (fm_value f a s))) (fm_load f) (fm_visit f))
  | SetLoad a s c v =>
      if (0 <? dim) && negb (check_arg a dim) then (ErrRange, f)
      else if (0 <? dof) && negb (check_arg c dof) then (ErrRange, f)
      else if negb (check_arg a 3) then (ErrRange, f)
      else if negb (check_arg s 2) then (ErrRange, f)
      else if negb (check_arg c 64) then (ErrRange, f)
      else (Ok, mk_form (Z.max (fm_dof f) (c+1)) (fm_value f) (set2 (fm_load f) a s (assoc_set c v (fm_load f a s))) (fm_visit f))
  | SetForm a s b =>
      if (0 <? dim) && negb (check_arg a dim) then (ErrRange, f)
      else if negb (check_arg a 3) then (ErrRange, f)
      else if negb (check_arg s 2) then (ErrRange, f)
      else (Ok, mk_form (fm_dof f) (fm_value f) (fm_load f) (set2 (fm_visit f) a s b))
  | Clear a s =>
      if negb (check_arg a 3) then (ErrRange, f)
      else if negb (check_arg s 2) then (ErrRange, f)
      else (Ok, mk_form (fm_dof f) (set2 (fm_value f) a s []) (set2 (fm_load f) a s []) (set2 (fm_visit f) a s false))
  end.
(** src/petigaform.c:24-46 IGAFormCreate: zeroed tables, dof -1. *)
Definition new_form {V} : form V := mk_form (-1) (fun _ _ => []) (fun _ _ => []) (fun _ _ => false).
(** A history of calls, each with the IGA's dim and dof at that moment. *)
Definition bc_run {V} (calls : list (Z * Z * bc_op V)) : form V :=
  fold_left (fun f c => let '(dim, dof, op) := c in snd (bc_step dim dof op f)) calls new_form.

(** * Element fix list *)
Section Fix.
  Variable dof : Z.
  Variable table : option (Z -> R).    (* iga->fixtableU when iga->fixtable *)
  Variable mapping : Z -> Z.           (* element->mapping *)

  (** src/petigaelem.c:1166-1189 AddFixa *)
  Definition add_fixa (bc : list (Z * R)) (a : Z) (fix_ : list (Z * R)) : list (Z * R) :=
    fold_left (fun l e =>
      let c := fst e in
      if dof <=? c then l
      else assoc_set (a*dof + c) (match table with Some T => T (c + mapping a * dof) | None => snd e end) l)
    bc fix_.
  (** src/petigaelem.c:1191-1212 AddFlux *)
  Definition add_flux (bc : list (Z * R)) (a : Z) (area : R) (flux : list (Z * R)) : list (Z * R) :=
    fold_left (fun l e =>
      let c := fst e in
      if dof <=? c then l else assoc_add (a*dof + c) (snd e * area)%R l)
    bc flux.

  Variable nen : Z -> Z.               (* BD[i]->nen *)
  Variable value load : Z -> Z -> list (Z * R).
  Variable area : Z -> Z -> R.         (* BoundaryArea(element,dir,side) *)

  (** src/petigaelem.c:1224-1233: the local nodes of a face, in loop order. *)
  Definition face_nodes (dir side : Z) : list triple :=
    let S := fun i => if (i =? dir) && negb (side =? 0) then nen i - 1 else 0 in
    let E := fun i => if (i =? dir) && (side =? 0) then S i + 1 else nen i in
    box S (fun i => E i - S i).
  (** src/petigaelem.c:1214-1238 BuildFix; state (fix, flux) *)
  Definition build_face (dir side : Z) (st : list (Z * R) * list (Z * R)) : list (Z * R) * list (Z * R) :=
    match value dir side, load dir side with
    | [], [] => st
    | bcv, bcl =>
        fold_left (fun st t =>
          let a := lin nen t in
          (add_fixa bcv a (fst st), add_flux bcl a (match bcl with [] => 1%R | _ => area dir side end) (snd st)))
        (face_nodes dir side) st
    end.
  (** src/petigaelem.c:1270-1285 IGAElementBuildFix, quadrature *)
  Definition build_fix (dim : Z) (periodic : Z -> bool) (sizes ID : Z -> Z) : list (Z * R) * list (Z * R) :=
    fold_left (fun st i =>
      let st := if (ID i =? 0) && negb (periodic i) then build_face i 0 st else st in
      if (ID i =? sizes i - 1) && negb (periodic i) then build_face i 1 st else st)
    (zseq 0 dim) ([], []).

  (** src/petigaelem.c:1286-1324 IGAElementBuildFix, collocation; [first] are the offsets of the
      collocation point; L = None stands for PETSC_MIN_INT, R = None for PETSC_MAX_INT. *)
  Definition build_fix_colloc (dim : Z) (periodic : Z -> bool) (sizes first : Z -> Z) : list (Z * R) :=
    let atL := fun i A => (i <? dim) && (A =? 0) in
    let atR := fun i A => (i <? dim) && negb (periodic i) && (A =? sizes i - 1) in
    fold_left (fun l t =>
      let '(ia, ja, ka) := t in let a := lin nen t in
      let step := fun i A l => if atL i A then add_fixa (value i 0) a l else if atR i A then add_fixa (value i 1) a l else l in
      step 2 (first 2 + ka) (step 1 (first 1 + ja) (step 0 (first 0 + ia) l)))
    (box zero3 nen) [].
End Fix.

(** * Applying it *)
(** for (i=0; i<n; i++) A[f(i)] = g(A,i) *)
Definition loop {A} (n : Z) (body : Z -> A -> A) (x : A) : A := fold_left (fun x i => body i x) (zseq 0 n) x.

(** src/petigaelem.c:1360-1390 IGAElementFixSystem (quadrature, neq = nen): N = nen*dof; K is the flat array. *)
Definition fix_system (N : Z) (fix_ flux : list (Z * R)) (K F : Z -> R) : (Z -> R) * (Z -> R) :=
  let F := fold_left (fun F e => upd F (fst e) (F (fst e) + snd e)%R) flux F in
  fold_left (fun KF e =>
    let '(K, F) := KF in let k := fst e in let v := snd e in
    let F := loop N (fun i F => upd F i (F i - K (i*N + k)%Z * v)%R) F in
    let K := loop N (fun i K => upd K (i*N + k) 0%R) K in
    let K := loop N (fun j K => upd K (k*N + j) 0%R) K in
    (upd K (k*N + k) 1%R, upd F k v))
  fix_ (K, F).

(** src/petigaelem.c:1343-1358 IGAElementFixValues: (ufix, U) *)
Definition fix_values (fix_ : list (Z * R)) (U : Z -> R) : list R * (Z -> R) :=
  fold_left (fun st e => (fst st ++ [snd st (fst e)], upd (snd st) (fst e) (snd e))) fix_ ([], U).
(** src/petigaelem.c:1327-1341 IGAElementDelValues *)
Definition del_values (fix_ : list (Z * R)) (V : Z -> R) : Z -> R :=
  fold_left (fun V e => upd V (fst e) 0%R) fix_ V.
(** src/petigaelem.c:1441-1462 IGAElementFixFunction (quadrature) *)
Definition fix_function (fix_ flux : list (Z * R)) (ufix : list R) (F : Z -> R) : Z -> R :=
  let F := fold_left (fun F e => upd F (fst e) (F (fst e) - snd e)%R) flux F in
  fold_left (fun F p => upd F (fst (fst p)) (snd p - snd (fst p))%R) (combine fix_ ufix) F.
(** src/petigaelem.c:1483-1502 IGAElementFixJacobian (quadrature) *)
Definition fix_jacobian (N : Z) (fix_ : list (Z * R)) (J : Z -> R) : Z -> R :=
  fold_left (fun J e =>
    let k := fst e in
    let J := loop N (fun i J => upd J (i*N + k) 0%R) J in
    let J := loop N (fun j J => upd J (k*N + j) 0%R) J in
    upd J (k*N + k) 1%R) fix_ J.

(** src/petigaelem.c:1391-1438 IGAElementFixSystem, collocation, boundary values only (load conditions need
    the normal): [shape] is element->basis[0], one value per node. *)
Definition fix_system_colloc (dim dof nen : Z) (sizes ID : Z -> Z) (value : Z -> Z -> list (Z * R)) (shape : Z -> R)
    (K F : Z -> R) : (Z -> R) * (Z -> R) :=
  let N := nen * dof in
  fold_left (fun KF ds =>
    let '(dir, side) := ds in
    if ID dir =? (if side =? 0 then 0 else sizes dir - 1) then
      fold_left (fun KF e =>
        let '(K, F) := KF in let c := fst e in
        let K := loop N (fun j K => upd K (c*N + j) 0%R) K in
        let K := loop nen (fun a K => upd K (c*N + a*dof + c) (shape a)) K in
        (K, upd F c (snd e))) (value dir side) KF
    else KF)
  (flat_map (fun d => [(d, 0); (d, 1)]) (zseq 0 dim)) (K, F).
