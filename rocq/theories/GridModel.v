(** Model of src/petigagrid.c and of the vector transfers in src/petigavec.c.  Definitions only.
    All ranks are described together: [G r] is the grid context of rank r, [off r] the first block
    owned by rank r in a global vector (PETSc layouts are consecutive). *)
From Coq Require Import ZArith List Bool Reals.
From Verif Require Import Prelude Box AxisInitModel SetupModel.
Import ListNotations.
Open Scope Z_scope.

(** src/petigagrid.h struct _n_IGA_Grid: dof, sizes, local_start, local_width, ghost_start, ghost_width
    (directions 0..2, the unused ones being 1,0,1,0,1). *)
Record grid := mk_grid { gr_dof : Z; gr_sizes : Z -> Z; gr_lstart : Z -> Z; gr_lwidth : Z -> Z;
                         gr_gstart : Z -> Z; gr_gwidth : Z -> Z }.

(** src/petiga.c:1346-1349 / src/petigagrid.c:28-57 IGA_Grid_Init with the node ranges of a rank. *)
Definition grid_of (dof : Z) (nd : Z -> range) : grid :=
  mk_grid dof (fun d => r_size (nd d)) (fun d => r_lstart (nd d)) (fun d => r_lwidth (nd d))
          (fun d => r_gstart (nd d)) (fun d => r_gwidth (nd d)).

(** src/petigagrid.c:98-130 IGA_Grid_LocalIndices with bs=1 (its only use). *)
Definition local_indices (g : grid) : list Z := map (lin (gr_sizes g)) (box (gr_lstart g) (gr_lwidth g)).

(** src/petigagrid.c:161-163: wrap one ghost coordinate. *)
Definition wrap1 (size i : Z) : Z := if i <? 0 then size + i else if size <=? i then i mod size else i.
Definition wrap (N : Z -> Z) (t : triple) : triple :=
  let '(i, j, k) := t in (wrap1 (N 0) i, wrap1 (N 1) j, wrap1 (N 2) k).

(** src/petigagrid.c:132-171 IGA_Grid_GhostIndices with bs=1 (its only use). *)
Definition ghost_indices (g : grid) : list Z :=
  map (fun t => lin (gr_sizes g) (wrap (gr_sizes g) t)) (box (gr_gstart g) (gr_gwidth g)).

(** Number of blocks owned (src/petigagrid.c:284). *)
Definition nlocal (g : grid) : Z := vol (gr_lwidth g).

Section World.
  Variable size : Z.
  Variable G : Z -> grid.

  (** VecGetOwnershipRange in blocks: PETSc lays the ranks' blocks out consecutively. *)
  Definition off (r : Z) : Z := zsum (fun q => nlocal (G q)) 0 r.

  (** src/petigagrid.c:185-200 IGA_Grid_GetAO: AOCreateMemoryScalable(napp,iapp,NULL) numbers the
      application indices of rank 0, then those of rank 1, ...; the application ordering. *)
  Definition app_order : list Z := flat_map (fun r => local_indices (G r)) (zseq 0 size).

  (** AOApplicationToPetsc: position in that list; negative entries are left alone, an index that
      is in no list becomes -1. *)
  Definition ao (x : Z) : Z := if x <? 0 then x else index_of x app_order.

  (** src/petigagrid.c:213-228 IGA_Grid_GetLGMap: block k of rank r's local vector. *)
  Definition lgmap (r k : Z) : Z := ao (nth (Z.to_nat k) (ghost_indices (G r)) (-1)).

  (** ISCreateBlock(bs): block pairs to entry pairs. *)
  Definition blocks (bs : Z) (l : list (Z * Z)) : list (Z * Z) :=
    flat_map (fun p => map (fun c => (bs * fst p + c, bs * snd p + c)) (zseq 0 bs)) l.

  Section Vec.
    Context {A : Type}.
    (** VecScatter, INSERT_VALUES: y[to] = x[from] for every pair; pairs with a negative index are
        ignored (PETSc's convention). *)
    Definition insert_pairs (l : list (Z * Z)) (x y : Z -> A) : Z -> A :=
      fold_left (fun y p => if (fst p <? 0) || (snd p <? 0) then y else upd y (snd p) (x (fst p))) l y.
  End Vec.

  (** VecScatter, ADD_VALUES: y[to] += x[from] (exact arithmetic). *)
  Definition add_pairs (l : list (Z * Z)) (x y : Z -> R) : Z -> R :=
    fold_left (fun y p => if (fst p <? 0) || (snd p <? 0) then y else upd y (snd p) (y (snd p) + x (fst p))%R) l y.

  Definition nghost (r : Z) : Z := vol (gr_gwidth (G r)).

  (** src/petigagrid.c:314-339 IGA_Grid_GetScatterG2L: (global, local) block pairs of rank r. *)
  Definition g2l_pairs (r : Z) : list (Z * Z) := map (fun k => (lgmap r k, k)) (zseq 0 (nghost r)).

  (** src/petigagrid.c:359-368: local indices of the owned box inside the ghosted box; the array has
      nlocal entries, those not written keep arbitrary contents [junk]. *)
  Definition ilocal_written (r : Z) : list Z :=
    let b := box (gr_gstart (G r)) (gr_gwidth (G r)) in
    map snd (filter (fun p => in_boxb (gr_lstart (G r)) (gr_lwidth (G r)) (fst p))
                    (combine b (zseq 0 (Z.of_nat (length b))))).
  Definition ilocal (junk : Z -> Z -> Z) (r pos : Z) : Z :=
    if pos <? Z.of_nat (length (ilocal_written r)) then nth (Z.to_nat pos) (ilocal_written r) 0
    else junk r pos.

  (** src/petigagrid.c:341-385 IGA_Grid_GetScatterL2G: (local, global) block pairs of rank r. *)
  Definition l2g_pairs (junk : Z -> Z -> Z) (r : Z) : list (Z * Z) :=
    map (fun pos => (ilocal junk r pos, off r + pos)) (zseq 0 (nlocal (G r))).

  (** src/petigavec.c:147-178 IGAGlobalToLocal(INSERT_VALUES) on rank r. *)
  Definition global_to_local {A} (V : Z -> A) (r : Z) (L : Z -> A) : Z -> A :=
    insert_pairs (blocks (gr_dof (G r)) (g2l_pairs r)) V L.

  (** src/petigavec.c:180-221 IGALocalToGlobal(INSERT_VALUES); [order] is the order in which the
      ranks' contributions arrive. *)
  Definition local_to_global_insert {A} (junk : Z -> Z -> Z) (order : list Z) (L : Z -> Z -> A) (V : Z -> A) : Z -> A :=
    fold_left (fun V r => insert_pairs (blocks (gr_dof (G r)) (l2g_pairs junk r)) (L r) V) order V.

  (** src/petigavec.c:180-221 IGALocalToGlobal(ADD_VALUES): g2l in reverse. *)
  Definition local_to_global_add (order : list Z) (L : Z -> Z -> R) (V : Z -> R) : Z -> R :=
    fold_left (fun V r => add_pairs (blocks (gr_dof (G r)) (map (fun p => (snd p, fst p)) (g2l_pairs r))) (L r) V) order V.

  (** src/petigagrid.c:469-576 IGA_Grid_NewScatterApp: [shift] node_shift, [asz] geom_sizes,
      [ast r], [awd r] geom_lstart/geom_lwidth of rank r. *)
  Variable shift asz : Z -> Z.
  Variable ast awd : Z -> Z -> Z.

  Definition shifted (s : Z -> Z) : Z -> Z := fun d => shift d + s d.

  (** lines 504-527: (natural, global) block pairs. *)
  Definition n2g_pairs (r : Z) : list (Z * Z) :=
    let inatural := map (lin asz) (box (shifted (gr_lstart (G r))) (gr_lwidth (G r))) in
    combine inatural (map (fun pos => off r + pos) (zseq 0 (nlocal (G r)))).

  (** lines 529-566: (global, natural) block pairs; [junkg], [junkn] are the unwritten tails. *)
  Definition g2n_written (r : Z) : list (Z * triple) :=
    let b := box (shifted (gr_gstart (G r))) (gr_gwidth (G r)) in
    map (fun p => (snd p, fst p)) (filter (fun p => in_boxb (ast r) (awd r) (fst p))
                    (combine b (zseq 0 (Z.of_nat (length b))))).
  Definition g2n_pairs (junkg junkn : Z -> Z -> Z) (r : Z) : list (Z * Z) :=
    map (fun pos =>
      match nth_error (g2n_written r) (Z.to_nat pos) with
      | Some (index, t) => (lgmap r index, lin asz t)
      | None => (lgmap r (junkg r pos), junkn r pos)
      end) (zseq 0 (vol (awd r))).

  (** src/petigavec.c:296-307 IGANaturalToGlobal *)
  Definition natural_to_global {A} (order : list Z) (W V : Z -> A) : Z -> A :=
    fold_left (fun V r => insert_pairs (blocks (gr_dof (G r)) (n2g_pairs r)) W V) order V.
  (** src/petigavec.c:309-320 IGAGlobalToNatural *)
  Definition global_to_natural {A} (junkg junkn : Z -> Z -> Z) (order : list Z) (V W : Z -> A) : Z -> A :=
    fold_left (fun W r => insert_pairs (blocks (gr_dof (G r)) (g2n_pairs junkg junkn r)) V W) order W.
End World.
