(** Model of src/petigaio.c (save and load of discretisations, geometry, properties and vectors) and of the
    binary view and load of matrices in src/petigamat.c.  Definitions only.
    All ranks are described together; a binary file is the list of the items written to it.  Scalars are real. *)
From Coq Require Import ZArith List Bool Reals.
From Verif Require Import Prelude RealOrd Box AxisModel AxisInitModel PartModel SetupModel GridModel.
Import ListNotations.
Open Scope Z_scope.

(** * Binary files *)
(** Items of PETSC_INT, PETSC_REAL and PETSC_SCALAR type. *)
Inductive word := WInt (z : Z) | WReal (x : R) | WScalar (x : R).

(** PetscViewerBinaryRead: [None] when the items are not there. *)
Definition rd_int (f : list word) : option (Z * list word) :=
  match f with WInt z :: f => Some (z, f) | _ => None end.
Fixpoint rd_reals (n : nat) (f : list word) : option (list R * list word) :=
  match n with
  | 0%nat => Some ([], f)
  | S n => match f with
           | WReal x :: f => match rd_reals n f with Some (l, f) => Some (x :: l, f) | None => None end
           | _ => None
           end
  end.
Fixpoint rd_scalars (n : nat) (f : list word) : option (list R * list word) :=
  match n with
  | 0%nat => Some ([], f)
  | S n => match f with
           | WScalar x :: f => match rd_scalars n f with Some (l, f) => Some (x :: l, f) | None => None end
           | _ => None
           end
  end.

(** include/petiga.h:394; VEC_FILE_CLASSID of PETSc. *)
Definition IGA_FILE_CLASSID : Z := 1211299.
Definition VEC_FILE_CLASSID : Z := 1211214.

(** PETSc's VecView on a binary viewer: class id and size unless headers are skipped, then the n entries in order. *)
Definition vec_view (skipheader : bool) (n : Z) (x : Z -> R) : list word :=
  (if skipheader then [] else [WInt VEC_FILE_CLASSID; WInt n]) ++ map (fun e => WScalar (x e)) (zseq 0 n).
(** PETSc's VecLoad into a vector of size n with previous contents [old]. *)
Definition vec_load (n : Z) (old : Z -> R) (f : list word) : option ((Z -> R) * list word) :=
  match rd_int f with
  | Some (id, f) => if negb (id =? VEC_FILE_CLASSID) then None else
      match rd_int f with
      | Some (rows, f) => if negb (rows =? n) then None else
          match rd_scalars (Z.to_nat n) f with
          | Some (l, f) => Some ((fun e => if (0 <=? e) && (e <? n) then nth (Z.to_nat e) l 0%R else old e), f)
          | None => None
          end
      | None => None
      end
  | None => None
  end.

(** src/petigaio.c:599-642 VecLoad_Binary_SkipHeader: rank 0 reads its own entries and then, for i = 1..size-1, the
    range[i+1]-range[i] entries of rank i, which it sends to rank i; [old r] is the array of rank r before. *)
Definition load_skip_step (range : Z -> Z) (st : option ((Z -> Z -> R) * list word)) (i : Z) : option ((Z -> Z -> R) * list word) :=
  match st with
  | None => None
  | Some (arrays, f) =>
      let n := range (i+1) - range i in
      match rd_scalars (Z.to_nat n) f with
      | None => None
      | Some (work, f) =>
          Some ((fun r k => if (r =? i) && (0 <=? k) && (k <? n) then nth (Z.to_nat k) work 0%R else arrays r k), f)
      end
  end.
Definition vec_load_skip (size : Z) (range : Z -> Z) (old : Z -> Z -> R) (f : list word) : option ((Z -> Z -> R) * list word) :=
  fold_left (load_skip_step range) (zseq 1 (size-1)) (load_skip_step range (Some (old, f)) 0).
(** Entry e of a distributed vector is entry e - range r of the array of its owner. *)
Definition owner_of (size : Z) (range : Z -> Z) (e : Z) : Z :=
  match find (fun r => (range r <=? e) && (e <? range (r+1))) (zseq 0 size) with Some r => r | None => 0 end.
Definition assemble (size : Z) (range : Z -> Z) (a : Z -> Z -> R) (e : Z) : R :=
  let r := owner_of size range e in a r (e - range r).

Section IO.
  (** Number of processes; whether the viewer skips headers. *)
  Variable size : Z.
  Variable skipheader : bool.
  (** Order in which messages of different ranks are applied, uninitialised memory (PetscMalloc1, VecCreate). *)
  Variables order1 order2 : list Z.
  Variable junk : Z -> Z -> Z.
  Variable lv0 : Z -> Z -> R.
  Variables gv0 nv0 : Z -> R.

  (** src/petigagrid.c:387-409 IGA_Grid_GetScatterG2N: (global, natural) blocks of rank r. *)
  Definition grid_g2n_pairs (G : Z -> grid) (r : Z) : list (Z * Z) :=
    combine (map (fun pos => off G r + pos) (zseq 0 (nlocal (G r)))) (local_indices (G r)).
  Definition swap_pairs (l : list (Z * Z)) : list (Z * Z) := map (fun p => (snd p, fst p)) l.
  Definition grid_global_to_natural (G : Z -> grid) (order : list Z) (V W : Z -> R) : Z -> R :=
    fold_left (fun W r => insert_pairs (blocks (gr_dof (G r)) (grid_g2n_pairs G r)) V W) order W.
  Definition grid_natural_to_global (G : Z -> grid) (order : list Z) (W V : Z -> R) : Z -> R :=
    fold_left (fun V r => insert_pairs (blocks (gr_dof (G r)) (swap_pairs (grid_g2n_pairs G r))) W V) order V.

  (** src/petigaio.c:141-159 IGA_NewGridIO: the grid of the geometry ranges with [bs] components. *)
  Definition io_grid (bs : Z) (geom : Z -> Z -> range) : Z -> grid := fun r => grid_of bs (geom r).
  (** Size of the vectors of that grid (src/petigagrid.c:282-286). *)
  Definition io_size (bs : Z) (geom : Z -> Z -> range) : Z := bs * vol (gr_sizes (io_grid bs geom 0)).

  (** local -> global -> natural -> viewer, src/petigaio.c:340-347 and 504-511. *)
  Definition save_array (bs : Z) (geom : Z -> Z -> range) (L : Z -> Z -> R) : list word :=
    let G := io_grid bs geom in
    let gvec := local_to_global_insert G junk order1 L gv0 in
    let nvec := grid_global_to_natural G order2 gvec nv0 in
    vec_view skipheader (io_size bs geom) nvec.
  (** viewer -> natural -> global -> local, src/petigaio.c:238-249 and 429-440: the global vector and the local ones;
      the natural vector is laid out like the global one (src/petigagrid.c:307). *)
  Definition load_array (bs : Z) (geom : Z -> Z -> range) (f : list word) : option ((Z -> R) * (Z -> Z -> R) * list word) :=
    let G := io_grid bs geom in
    let nvec := if skipheader
                then let range := fun r => bs * off G r in
                     match vec_load_skip size range (fun r k => nv0 (range r + k)) f with
                     | Some (a, f) => Some (assemble size range a, f) | None => None end
                else vec_load (io_size bs geom) nv0 f in
    match nvec with
    | None => None
    | Some (nvec, f) =>
        let gvec := grid_natural_to_global G order1 nvec gv0 in
        Some (gvec, fun r => global_to_local size G gvec r (lv0 r), f)
    end.

  (** src/petigaio.c:324-339: the values appended for the n nodes of a local vector; the test is on |W[a]| > 0. *)
  Definition nonzerob (x : R) : bool := if Rlt_dec 0 (Rabs x) then true else false.
  Definition pack (nsd n : Z) (X : Z -> R) (W : option (Z -> R)) : list R :=
    flat_map (fun a =>
      let w := match W with Some W => if nonzerob (W a) then W a else 1%R | None => 1%R end in
      map (fun i => (X (i + a*nsd)%Z * w)%R) (zseq 0 nsd) ++ [match W with Some W => W a | None => 1%R end])
      (zseq 0 n).
  (** src/petigaio.c:268-275: one iteration of the loop over a. *)
  Definition unpack_node (nsd : Z) (Xw : Z -> R) (st : Z * (Z -> R) * (Z -> R)) (a : Z) : Z * (Z -> R) * (Z -> R) :=
    let '(pos, X, W) := st in
    let '(pos, X) := fold_left (fun s i => (fst s + 1, upd (snd s) (i + a*nsd) (Xw (fst s)))) (zseq 0 nsd) (pos, X) in
    let W := upd W a (Xw pos) in
    let pos := pos + 1 in
    let X := if nonzerob (W a) then fold_left (fun X i => upd X (i + a*nsd) (X (i + a*nsd)%Z / W a)%R) (zseq 0 nsd) X else X in
    (pos, X, W).
  Definition unpack (nsd n : Z) (Xw X W : Z -> R) : (Z -> R) * (Z -> R) :=
    let '(_, X, W) := fold_left (unpack_node nsd Xw) (zseq 0 n) (0, X, W) in (X, W).

  (** The part of struct _p_IGA (all ranks) read and written here: dim, axis, geometry, rational, geometryX,
      rationalW, property, propertyA (None for NULL) and the ranges geom_sizes, geom_lstart, ... *)
  Record io_iga := mk_io_iga {
    io_dim : Z; io_axes : Z -> axis Rord;
    io_nsd : Z; io_rational : bool; io_X : option (Z -> Z -> R); io_W : option (Z -> Z -> R);
    io_npd : Z; io_A : option (Z -> Z -> R);
    io_geom : Z -> Z -> range }.

  (** src/petiga.c:32-63 IGACreate (axes from src/petigaaxis.c:3-27): nothing set. *)
  Definition io_create : io_iga :=
    mk_io_iga 0 (fun _ => axis_create (O:=Rord) (-1/2)%R (1/2)%R) 0 false None None 0 None (fun _ _ => unit_range).

  Definition io_nodes (g : io_iga) (r : Z) : Z := vol (fun d => r_gwidth (io_geom g r d)).

  (** src/petigaio.c:288-356 IGASaveGeometry *)
  Definition save_geometry (g : io_iga) : option (list word) :=
    if io_nsd g =? 0 then None else
    match io_X g with
    | None => None
    | Some X =>
        let nsd := io_nsd g in
        let L r e := nth (Z.to_nat e) (pack nsd (io_nodes g r) (X r) (option_map (fun W => W r) (io_W g))) (lv0 r e) in
        Some (save_array (nsd+1) (io_geom g) L)
    end.
  (** src/petigaio.c:461-520 IGASaveProperty (propertyA is not checked; None models the copy from NULL) *)
  Definition save_property (g : io_iga) : option (list word) :=
    if io_npd g =? 0 then None else
    match io_A g with
    | None => None
    | Some A => Some (save_array (io_npd g) (io_geom g) A)
    end.

  (** Minimum and maximum of a component of a block vector (VecStrideMin, VecStrideMax). *)
  Definition stride_min (bs n c : Z) (V : Z -> R) : R := fold_left (fun m b => Rmin m (V (bs*b + c)%Z)) (zseq 1 (n-1)) (V c).
  Definition stride_max (bs n c : Z) (V : Z -> R) : R := fold_left (fun m b => Rmax m (V (bs*b + c)%Z)) (zseq 1 (n-1)) (V c).

  (** 100*PETSC_MACHINE_EPSILON *)
  Variable tol_w : R.
  (** src/petigaio.c:201-286 IGALoadGeometry; [X0], [W0] are the contents of the allocated arrays. *)
  Definition load_geometry (X0 W0 : Z -> Z -> R) (g : io_iga) (f : list word) : option (io_iga * list word) :=
    let nsd := io_nsd g in
    if nsd <? 1 then None else
    match load_array (nsd+1) (io_geom g) f with
    | None => None
    | Some (gvec, lvec, f) =>
        let n := vol (gr_sizes (io_grid (nsd+1) (io_geom g) 0)) in
        let rational := if Rlt_dec tol_w (stride_max (nsd+1) n nsd gvec - stride_min (nsd+1) n nsd gvec)%R then true else false in
        let XW r := unpack nsd (io_nodes g r) (lvec r) (X0 r) (W0 r) in
        Some (mk_io_iga (io_dim g) (io_axes g) nsd rational (Some (fun r => fst (XW r))) (Some (fun r => snd (XW r)))
                        (io_npd g) (io_A g) (io_geom g), f)
    end.
  (** src/petigaio.c:393-459 IGALoadProperty *)
  Definition load_property (g : io_iga) (f : list word) : option (io_iga * list word) :=
    let npd := io_npd g in
    if npd <? 1 then None else
    match load_array npd (io_geom g) f with
    | None => None
    | Some (_, lvec, f) =>
        Some (mk_io_iga (io_dim g) (io_axes g) (io_nsd g) (io_rational g) (io_X g) (io_W g) npd (Some lvec) (io_geom g), f)
    end.

  (** src/petigaio.c:75-139 IGASave *)
  Definition save_axis (a : axis Rord) : list word :=
    [WInt (ax_p a); WInt (ax_m a + 1)] ++ map (fun k => WReal (ax_U a k)) (zseq 0 (ax_m a + 1)).
  Definition iga_save (g : io_iga) : option (list word) :=
    let info := Z.lor (if io_nsd g =? 0 then 0 else 1) (if io_npd g =? 0 then 0 else 2) in
    let head := (if skipheader then [] else [WInt IGA_FILE_CLASSID]) ++ [WInt info; WInt (io_dim g)]
                ++ flat_map (fun i => save_axis (io_axes g i)) (zseq 0 (io_dim g)) in
    let geom := if io_nsd g =? 0 then Some [] else option_map (fun l => WInt (io_nsd g) :: l) (save_geometry g) in
    let prop := if io_npd g =? 0 then Some [] else option_map (fun l => WInt (io_npd g) :: l) (save_property g) in
    match geom, prop with Some l1, Some l2 => Some (head ++ l1 ++ l2) | _, _ => None end.

  (** src/petiga.c:320-331 IGASetDim *)
  Definition io_set_dim (dim : Z) (g : io_iga) : option io_iga :=
    if (dim <? 1) || (3 <? dim) then None
    else if (0 <? io_dim g) && negb (io_dim g =? dim) then None
    else Some (mk_io_iga dim (io_axes g) (io_nsd g) (io_rational g) (io_X g) (io_W g) (io_npd g) (io_A g) (io_geom g)).
  (** src/petiga.c:111-152 IGAReset (the axes are kept) *)
  Definition io_reset (g : io_iga) : io_iga :=
    mk_io_iga (io_dim g) (io_axes g) 0 false None None 0 None (io_geom g).
  (** src/petigaio.c:174-190 IGASetGeometryDim *)
  Definition io_set_geometry_dim (dim : Z) (g : io_iga) : option io_iga :=
    if (dim <? 1) || (3 <? dim) then None
    else if dim <? io_dim g then None
    else if io_nsd g =? dim then Some g
    else Some (mk_io_iga (io_dim g) (io_axes g) dim false None None (io_npd g) (io_A g) (io_geom g)).
  (** src/petigaio.c:371-382 IGASetPropertyDim *)
  Definition io_set_property_dim (dim : Z) (g : io_iga) : option io_iga :=
    if dim <? 0 then None
    else if io_npd g =? dim then Some g
    else Some (mk_io_iga (io_dim g) (io_axes g) (io_nsd g) (io_rational g) (io_X g) (io_W g) dim None (io_geom g)).
  (** src/petigaio.c:44-55, one axis of the loop. *)
  Definition load_axis (st : option ((Z -> axis Rord) * list word)) (i : Z) : option ((Z -> axis Rord) * list word) :=
    match st with
    | None => None
    | Some (axes, f) =>
        match rd_int f with
        | None => None
        | Some (p, f) =>
            match rd_int f with
            | None => None
            | Some (m, f) =>
                match rd_reals (Z.to_nat m) f with
                | None => None
                | Some (U, f) =>
                    match axis_init (O:=Rord) p (m-1) (arr 0%R U) (axes i) with
                    | (Ok, a) => Some (upd axes i a, f)
                    | _ => None
                    end
                end
            end
        end
    end.

  (** src/petiga.c:1122-1310 IGASetUp_Stage1 called by IGASetUp_Basic (setupstage is 0 after IGAReset), quadrature,
      on all ranks; [user] is proc_sizes.  Only the axes and the geometry ranges are used here. *)
  Variable g2 : Z -> Z -> Z -> Z.
  Variable g3 : Z -> Z -> Z -> Z -> Z.
  Variable maxint : Z.
  Variable user : list Z.
  Definition io_layout (dim : Z) (axes : Z -> axis Rord) (r : Z) : option layout :=
    match stage1 g2 g3 maxint size r dim axes user with (Ok, Some ly) => Some ly | _ => None end.
  Definition io_setup_basic (g : io_iga) : option io_iga :=
    if io_dim g <? 1 then None else
    if negb (forallb (fun i => is_ok (fst (axis_setup (io_axes g i)))) (zseq 0 (io_dim g))) then None else
    let axes i := snd (axis_setup (io_axes g i)) in
    if negb (forallb (fun r => match io_layout (io_dim g) axes r with Some _ => true | None => false end) (zseq 0 size)) then None else
    Some (mk_io_iga (io_dim g) axes (io_nsd g) (io_rational g) (io_X g) (io_W g) (io_npd g) (io_A g)
            (fun r d => match io_layout (io_dim g) axes r with Some ly => ly_geom ly d | None => unit_range end)).

  (** src/petigaio.c:11-73 IGALoad *)
  Definition obind {A B} (x : option A) (f : A -> option B) : option B := match x with Some a => f a | None => None end.
  Definition iga_load (X0 W0 : Z -> Z -> R) (g : io_iga) (f : list word) : option (io_iga * list word) :=
    obind (if skipheader then Some f else
           match rd_int f with
           | Some (id, f) => if negb (id =? IGA_FILE_CLASSID) then None else Some f
           | None => None end) (fun f =>
    obind (rd_int f) (fun '(info, f) =>
    let geometry := negb (Z.land info 1 =? 0) in
    let property := negb (Z.land info 2 =? 0) in
    let g := io_reset g in
    obind (rd_int f) (fun '(dim, f) =>
    obind (io_set_dim dim g) (fun g =>
    obind (fold_left load_axis (zseq 0 dim) (Some (io_axes g, f))) (fun '(axes, f) =>
    let g := mk_io_iga (io_dim g) axes (io_nsd g) (io_rational g) (io_X g) (io_W g) (io_npd g) (io_A g) (io_geom g) in
    obind (io_setup_basic g) (fun g =>
    obind (if geometry then
             obind (rd_int f) (fun '(d, f) => obind (io_set_geometry_dim d g) (fun g => load_geometry X0 W0 g f))
           else Some (g, f)) (fun '(g, f) =>
    if property then
      obind (rd_int f) (fun '(d, f) => obind (io_set_property_dim d g) (fun g => load_property g f))
    else Some (g, f)))))))).
End IO.

(** * Vectors *)
Section VecIO.
  Variable size : Z.
  Variable G : Z -> grid.
  Variables shift asz : Z -> Z.
  Variables ast awd : Z -> Z -> Z.
  (** src/petigaio.c:664-683 IGASaveVec (binary, with header); [n0] is the natural vector before. *)
  Definition save_vec (junkg junkn : Z -> Z -> Z) (order : list Z) (n0 V : Z -> R) (dof : Z) : list word :=
    vec_view false (dof * vol asz) (global_to_natural size G shift asz ast awd junkg junkn order V n0).
  (** src/petigaio.c:644-662 IGALoadVec *)
  Definition load_vec (order : list Z) (n0 V : Z -> R) (dof : Z) (f : list word) : option ((Z -> R) * list word) :=
    match vec_load (dof * vol asz) n0 f with
    | Some (x, f) => Some (natural_to_global G shift asz order x V, f)
    | None => None
    end.
End VecIO.

(** * Matrices *)
Section MatIO.
  Variable size : Z.
  Variable G : Z -> grid.
  Variable bs : Z.
  (** AOPetscToApplication: entry of the application ordering; negative entries are left alone, -1 when out of range. *)
  Definition ao_inv (x : Z) : Z := if x <? 0 then x else nth (Z.to_nat x) (app_order size G) (-1).
  (** ISCreateBlock(bs,idx) *)
  Definition is_block (idx : list Z) : list Z := flat_map (fun b => map (fun c => bs*b + c) (zseq 0 bs)) idx.
  (** The index set of rank r: the stride rstart/bs, ... of (rend-rstart)/bs blocks mapped by the ordering,
      src/petigamat.c:57-71 and 113-127; rows are owned as vector entries. *)
  Definition mat_is (map_ : Z -> Z) (r : Z) : list Z :=
    let rstart := bs * off G r in let rend := bs * off G (r+1) in
    let is := map map_ (zseq (rstart/bs) ((rend-rstart)/bs)) in
    if 1 <? bs then is_block is else is.
  (** MatCreateSubMatrix(A,is,is): row and column e of the result are those at position e of the concatenated index set. *)
  Definition sub_matrix (is : list Z) (A : Z -> Z -> R) : Z -> Z -> R :=
    fun i j => A (nth (Z.to_nat i) is (-1)) (nth (Z.to_nat j) is (-1)).
  Definition all_is (map_ : Z -> Z) : list Z := flat_map (mat_is map_) (zseq 0 size).
  (** src/petigamat.c:32-82 MatView_MPI_IGA: the matrix written to the file (MatView). *)
  Definition mat_view (A : Z -> Z -> R) : Z -> Z -> R := sub_matrix (all_is (ao size G)) A.
  (** src/petigamat.c:84-136 MatLoad_MPI_IGA: the matrix obtained from the one in the file (MatLoad, MatCopy). *)
  Definition mat_load (F : Z -> Z -> R) : Z -> Z -> R := sub_matrix (all_is ao_inv) F.
End MatIO.
