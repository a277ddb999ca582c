(** The PETSc DM made from an IGA (src/petigadm.c): its set-up, the vectors and matrices it makes,
    the DMs derived from it and the index sets of its fields.  Definitions only.  All ranks are
    described together, as in GridModel. *)
From Coq Require Import ZArith List Bool String.
From Verif Require Import Prelude Box GridModel.
Import ListNotations.
Open Scope Z_scope.

(** include/petiga.h struct _p_IGA: the members the DM reads.  [g_nodes r] is the node grid of rank r
    out of [g_size] (src/petiga.c:1346-1349); [g_names] is [fieldname], NULL until the first name is
    given; [g_lgmap] identifies the local-to-global map, which every set-up makes anew. *)
Record iga := mk_iga { g_dim : Z; g_nsd : Z; g_dof : Z; g_setup : bool;
                       g_vectype : option string; g_mattype : option string;
                       g_names : option (Z -> option string);
                       g_size : Z; g_nodes : Z -> grid; g_lgmap : Z }.

(** PETSc's struct _p_DM: the members src/petigadm.c writes. *)
Record dm := mk_dm { d_iga : option iga; d_setup : bool; d_bs : Z; d_dim : Z; d_cdim : Z;
                     d_vectype : option string; d_mattype : option string; d_ltog : option Z }.

(** A vector or a matrix: its type, block size, whether the DM is attached. *)
Record obj := mk_obj { o_type : option string; o_bs : Z; o_dm : bool }.

Definition res (A : Type) : Type := (status * A)%type.

(** VECSTANDARD, MATAIJ, MATBAIJ (PETSc). *)
Definition VECSTANDARD : string := "standard".
Definition MATAIJ : string := "aij".
Definition MATBAIJ : string := "baij".

Definition or_else (t : option string) (x : string) : option string :=
  match t with Some y => Some y | None => Some x end.

(** src/petiga.c:1441-1493 IGASetUp, the parts a DM sees: [dof] (src/petiga.c:1321) and the types
    (1323-1330) get defaults and a new local-to-global map is made.  [nodes] is the distribution
    computed by stage 1 (SetupModel, GridModel), [map] the new map. *)
Definition IGASetUp (nodes : Z -> grid) (map : Z) (g : iga) : res iga :=
  if g_setup g then (Ok, g)
  else if g_dim g <? 1 then (ErrState, g)
  else
    let dof := if g_dof g <? 1 then 1 else g_dof g in
    (Ok, mk_iga (g_dim g) (g_nsd g) dof true
                (or_else (g_vectype g) VECSTANDARD)
                (or_else (g_mattype g) (if 1 <? dof then MATBAIJ else MATAIJ))
                (g_names g) (g_size g)
                (fun r => mk_grid dof (gr_sizes (nodes r)) (gr_lstart (nodes r)) (gr_lwidth (nodes r))
                                  (gr_gstart (nodes r)) (gr_gwidth (nodes r))) map).

(** The grid of a rank with another number of components: src/petiga.c:1346-1349 takes the sizes and
    widths from the IGA (copied by IGAClone, src/petiga.c:1521-1535) and dof from it. *)
Definition with_dof (dof : Z) (g : grid) : grid :=
  mk_grid dof (gr_sizes g) (gr_lstart g) (gr_lwidth g) (gr_gstart g) (gr_gwidth g).

(** src/petiga.c:1495-1565 IGAClone: a fresh IGA (types and names unset) with the same axes and
    distribution; [dof > 0] selects the number of components, else the original's. *)
Definition IGAClone (map : Z) (g : iga) (dof : Z) : res iga :=
  if negb (g_setup g) then (ErrOrder, g)
  else
    let dof := if 0 <? dof then dof else g_dof g in
    IGASetUp (g_nodes g) map
      (mk_iga (g_dim g) (g_nsd g) dof false None None None (g_size g) (g_nodes g) (-1)).

(** src/petiga.c:411-427 IGASetFieldName.  [dbg]: PetscAssertPointer (line 417) rejects a null name
    in PETSc's debug builds only; PetscStrallocpy copies NULL to NULL. *)
Definition IGASetFieldName (dbg : bool) (g : iga) (field : Z) (name : option string) : res iga :=
  match dbg, name with
  | true, None => (ErrArg, g)
  | _, _ =>
      if g_dof g <? 1 then (ErrState, g)
      else if (field <? 0) || (g_dof g <=? field) then (ErrRange, g)
      else
        let old := match g_names g with Some f => f | None => fun _ => None end in
        (Ok, mk_iga (g_dim g) (g_nsd g) (g_dof g) (g_setup g) (g_vectype g) (g_mattype g)
                    (Some (fun i => if i =? field then name else old i)) (g_size g) (g_nodes g) (g_lgmap g))
  end.

(** src/petiga.c:429-440 IGAGetFieldName. *)
Definition IGAGetFieldName (g : iga) (field : Z) : res (option string) :=
  if g_dof g <? 1 then (ErrState, None)
  else if (field <? 0) || (g_dof g <=? field) then (ErrRange, None)
  else (Ok, match g_names g with Some f => f field | None => None end).

(** * The DM itself *)

(** PETSc's DMCreate and DMSetType(DMIGA) (src/petigadm.c:387-440 DMCreate_IGA): no IGA yet.
    (PETSc gives a DM the types "standard" and "aij" when it is created.) *)
Definition DMCreate : dm := mk_dm None false 1 (-1) (-1) (Some VECSTANDARD) (Some MATAIJ) None.

(** PETSc's DMSetVecType and DMSetMatType, also reached from -dm_vec_type and -dm_mat_type in
    DMSetFromOptions. *)
Definition DMSetVecType (d : dm) (t : string) : dm :=
  mk_dm (d_iga d) (d_setup d) (d_bs d) (d_dim d) (d_cdim d) (Some t) (d_mattype d) (d_ltog d).
Definition DMSetMatType (d : dm) (t : string) : dm :=
  mk_dm (d_iga d) (d_setup d) (d_bs d) (d_dim d) (d_cdim d) (d_vectype d) (Some t) (d_ltog d).

(** src/petigadm.c:31-47 DMIGASetIGA; [same]: the IGA is the one already there. *)
Definition DMIGASetIGA (d : dm) (same : bool) (g : iga) : res dm :=
  match d_iga d, same with
  | Some _, false => (ErrState, d)
  | _, _ => (Ok, mk_dm (Some g) (d_setup d) (d_bs d) (d_dim d) (d_cdim d) (d_vectype d) (d_mattype d) (d_ltog d))
  end.

(** src/petigadm.c:215-232 DMSetUp_IGA.  [opts]: the IGA that IGACreate and IGASetFromOptions make when
    the DM has none (src/petigadm.c:60-77). *)
Definition DMSetUp_IGA (opts : res iga) (nodes : Z -> grid) (map : Z) (d : dm) : res dm :=
  let '(s, g) := match d_iga d with Some g => (Ok, g) | None => opts end in
  match s with
  | Ok =>
      let '(s, g) := IGASetUp nodes map g in
      match s with
      | Ok => (Ok, mk_dm (Some g) (d_setup d) (g_dof g) (g_dim g) (if 1 <=? g_nsd g then g_nsd g else g_dim g)
                         (g_vectype g) (g_mattype g) (Some (g_lgmap g)))
      | _ => (s, d)
      end
  | _ => (s, d)
  end.

(** PETSc's DMSetUp: once. *)
Definition DMSetUp (opts : res iga) (nodes : Z -> grid) (map : Z) (d : dm) : res dm :=
  if d_setup d then (Ok, d)
  else let '(s, d) := DMSetUp_IGA opts nodes map d in
       match s with
       | Ok => (Ok, mk_dm (d_iga d) true (d_bs d) (d_dim d) (d_cdim d) (d_vectype d) (d_mattype d) (d_ltog d))
       | _ => (s, d)
       end.

(** src/petigadm.c:11-29 DMIGACreate. *)
Definition DMIGACreate (g : iga) : res dm :=
  let d := mk_dm (Some g) false 1 (-1) (-1) (Some VECSTANDARD) (Some MATAIJ) None in
  if g_setup g then DMSetUp (ErrState, g) (g_nodes g) (g_lgmap g) d else (Ok, d).

(** src/petigadm.c:245-258 DMLoad_IGA; [load]: IGALoad (src/petigaio.c), which resets the IGA and sets
    it up again. *)
Definition DMLoad (opts : res iga) (load : iga -> res iga) (nodes : Z -> grid) (map : Z) (d : dm) : res dm :=
  let '(s, g) := match d_iga d with Some g => (Ok, g) | None => opts end in
  match s with
  | Ok =>
      let '(s, g) := load g in
      let d := mk_dm (Some g) (d_setup d) (d_bs d) (d_dim d) (d_cdim d) (d_vectype d) (d_mattype d) (d_ltog d) in
      match s with
      | Ok => if d_setup d then DMSetUp_IGA opts nodes map d else DMSetUp opts nodes map d
      | _ => (s, d)
      end
  | _ => (s, d)
  end.

(** src/petigavec.c:77-94 IGACreateVec (and 96-114 IGACreateLocalVec): the IGA's type and block size.
    [ok]: whether PETSc knows the type. *)
Definition IGACreateVec (ok : option string -> bool) (g : iga) : res obj :=
  if negb (g_setup g) then (ErrOrder, mk_obj None 0 false)
  else if ok (g_vectype g) then (Ok, mk_obj (g_vectype g) (g_dof g) false) else (ErrArg, mk_obj None 0 false).
(** src/petigamat.c:353-: IGACreateMat; MatSetType (372). *)
Definition IGACreateMat (ok : option string -> bool) (g : iga) : res obj :=
  if negb (g_setup g) then (ErrOrder, mk_obj None 0 false)
  else if ok (g_mattype g) then (Ok, mk_obj (g_mattype g) (g_dof g) false) else (ErrArg, mk_obj None 0 false).

Definition set_vectype (g : iga) (t : option string) : iga :=
  mk_iga (g_dim g) (g_nsd g) (g_dof g) (g_setup g) t (g_mattype g) (g_names g) (g_size g) (g_nodes g) (g_lgmap g).
Definition set_mattype (g : iga) (t : option string) : iga :=
  mk_iga (g_dim g) (g_nsd g) (g_dof g) (g_setup g) (g_vectype g) t (g_names g) (g_size g) (g_nodes g) (g_lgmap g).
Definition put_iga (d : dm) (g : iga) : dm :=
  mk_dm (Some g) (d_setup d) (d_bs d) (d_dim d) (d_cdim d) (d_vectype d) (d_mattype d) (d_ltog d).
Definition attach (o : obj) : obj := mk_obj (o_type o) (o_bs o) true.

(** src/petigadm.c:141-155 DMCreateGlobalVector_IGA (157-171 DMCreateLocalVector_IGA is the same with
    IGACreateLocalVec): the DM's type is lent to the IGA while the vector is made. *)
Definition DMCreateVector (ok : option string -> bool) (d : dm) : res (dm * obj) :=
  match d_iga d with
  | None => (ErrArg, (d, mk_obj None 0 false))
  | Some g =>
      let save := g_vectype g in
      let g1 := match d_vectype d with Some t => set_vectype g (Some t) | None => g end in
      match IGACreateVec ok g1 with
      | (Ok, v) =>
          let g2 := match d_vectype d with Some _ => set_vectype g1 save | None => g1 end in
          (Ok, (put_iga d g2, attach v))
      | (s, v) => (s, (put_iga d g1, v))
      end
  end.

(** src/petigadm.c:173-187 DMCreateMatrix_IGA. *)
Definition DMCreateMatrix (ok : option string -> bool) (d : dm) : res (dm * obj) :=
  match d_iga d with
  | None => (ErrArg, (d, mk_obj None 0 false))
  | Some g =>
      let save := g_mattype g in
      let g1 := match d_mattype d with Some t => set_mattype g (Some t) | None => g end in
      match IGACreateMat ok g1 with
      | (Ok, v) =>
          let g2 := match d_mattype d with Some _ => set_mattype g1 save | None => g1 end in
          (Ok, (put_iga d g2, attach v))
      | (s, v) => (s, (put_iga d g1, v))
      end
  end.

(** src/petigavec.c:8-16 VecDuplicate_IGA: a vector of the IGA. *)
Definition VecDuplicate (ok : option string -> bool) (d : dm) : res obj :=
  match d_iga d with
  | None => (ErrArg, mk_obj None 0 false)
  | Some g => IGACreateVec ok g
  end.

(** PETSc's DMClone and src/petigadm.c:260-275 DMClone_IGA: PETSc gives the new DM the types and the
    dimension of the old one, DMSetUp then runs DMSetUp_IGA on the clone of the IGA. *)
Definition DMClone (map : Z) (d : dm) : res dm :=
  match d_iga d with
  | None => (ErrArg, d)
  | Some g =>
      match IGAClone map g (g_dof g) with
      | (Ok, n) =>
          DMSetUp (ErrState, g) (g_nodes n) (g_lgmap n)
            (mk_dm (Some n) false 1 (d_dim d) (-1) (d_vectype d) (d_mattype d) None)
      | (s, _) => (s, d)
      end
  end.

(** src/petigadm.c:277-291 DMCreateCoordinateDM_IGA. *)
Definition DMCreateCoordinateDM (map : Z) (d : dm) : res dm :=
  match d_iga d with
  | None => (ErrArg, d)
  | Some g =>
      match IGAClone map g (Z.max (g_dim g) (g_nsd g)) with
      | (Ok, n) => DMIGACreate n
      | (s, _) => (s, d)
      end
  end.

(** * Fields *)

(** src/petigagrid.c:230-256 IGA_Grid_GetLayout, PetscLayoutGetRange: rank r owns the entries from the
    sum of the sizes [bs*width] of the ranks before it; the block size is [gr_dof]. *)
Definition layout_size (g : grid) : Z := gr_dof g * nlocal g.
Definition layout_start (G : Z -> grid) (r : Z) : Z := zsum (fun q => layout_size (G q)) 0 r.

(** src/petigadm.c:311-322: the index set of the fields [fields 0], ..., [fields (nf-1)] on rank r. *)
Definition sub_is (G : Z -> grid) (nf : Z) (fields : Z -> Z) (r : Z) : list Z :=
  let bs := gr_dof (G r) in
  let start := layout_start G r / bs in
  let stop := layout_start G (r + 1) / bs in
  flat_map (fun j => map (fun i => j * bs + fields i) (zseq 0 nf)) (zseq start (stop - start)).

(** PETSc's ISCreateStride. *)
Definition stride (n first step : Z) : list Z := map (fun k => first + k * step) (zseq 0 n).

(** src/petigadm.c:354-363: the index set of field i on rank r. *)
Definition field_is (G : Z -> grid) (i r : Z) : list Z :=
  let bs := gr_dof (G r) in
  let start := layout_start G r / bs in
  let stop := layout_start G (r + 1) / bs in
  stride (stop - start) (start + i) bs.

(** An index set over all ranks: PETSc orders it by rank. *)
Definition is_global (size : Z) (is : Z -> list Z) : list Z := flat_map is (zseq 0 size).

(** src/petigadm.c:304-306. *)
Definition fields_ok (g : iga) (nf : Z) (fields : Z -> Z) : bool :=
  forallb (fun i => negb ((fields i <? 0) || (g_dof g <=? fields i))) (zseq 0 nf).

(** src/petigadm.c:326-329: names of the selected fields. *)
Fixpoint copy_names (dbg : bool) (f : Z -> option string) (fields : Z -> Z) (is : list Z) (g : iga) : res iga :=
  match is with
  | [] => (Ok, g)
  | i :: is =>
      match IGASetFieldName dbg g i (f (fields i)) with
      | (Ok, g) => copy_names dbg f fields is g
      | (s, g) => (s, g)
      end
  end.

(** src/petigadm.c:293-333 DMCreateSubDM_IGA: the index set on every rank and the DM. *)
Definition DMCreateSubDM (dbg : bool) (map : Z) (d : dm) (nf : Z) (fields : Z -> Z) : res (list (list Z) * dm) :=
  match d_iga d with
  | None => (ErrArg, ([], d))
  | Some g =>
      if negb (fields_ok g nf fields) then (ErrRange, ([], d))
      else
        let is := List.map (sub_is (g_nodes g) nf fields) (zseq 0 (g_size g)) in
        match IGAClone map g nf with
        | (Ok, n) =>
            let '(s, n) := match g_names g with
                           | Some f => copy_names dbg f fields (zseq 0 nf) n
                           | None => (Ok, n)
                           end in
            match s with
            | Ok => let '(s, e) := DMIGACreate n in (s, (is, e))
            | _ => (s, (is, d))
            end
        | (s, _) => (s, (is, d))
        end
  end.

(** src/petigadm.c:341-352: names of all fields; [fmt] is the "%d" of PetscSNPrintf. *)
Definition field_name (fmt : Z -> string) (g : iga) (i : Z) : string :=
  match snd (IGAGetFieldName g i) with Some s => s | None => fmt i end.

(** src/petigadm.c:335-366 DMCreateFieldIS_IGA: number of fields, names, and for every field the index
    set on every rank. *)
Definition DMCreateFieldIS (fmt : Z -> string) (d : dm) : res (Z * list string * list (list (list Z))) :=
  match d_iga d with
  | None => (ErrArg, (0, [], []))
  | Some g =>
      (Ok, (g_dof g, List.map (field_name fmt g) (zseq 0 (g_dof g)),
            List.map (fun i => List.map (field_is (g_nodes g) i) (zseq 0 (g_size g))) (zseq 0 (gr_dof (g_nodes g 0)))))
  end.

(** src/petigadm.c:368-383 DMCreateFieldDecomposition_IGA: the DM of field i. *)
Definition field_dm (dbg : bool) (map : Z) (d : dm) (i : Z) : res dm :=
  let '(s, (_, e)) := DMCreateSubDM dbg map d 1 (fun _ => i) in (s, e).
