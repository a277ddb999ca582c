(** IGASetFromOptions (src/petiga.c:712-897) and the setters it calls.  Definitions only.
    Not modelled: vector and matrix types, the view options, the handlers of other objects.  The options data base is a
    record of what the user gave; PETSc's readers are [read_array] below. *)
From Coq Require Import ZArith List Bool Reals.
From Verif Require Import Prelude RealOrd AxisModel AxisInitModel RuleModel.
Import ListNotations.
Open Scope Z_scope.

(** include/petiga.h:113-118 *)
Inductive basis_type := BSpline | Bernstein | Lagrange | Spectral.
Definition btype_eqb (a b : basis_type) : bool :=
  match a, b with
  | BSpline, BSpline | Bernstein, Bernstein | Lagrange, Lagrange | Spectral, Spectral => true
  | _, _ => false
  end.

(** The options of the IGA with the prefix of the object; None = not given. *)
Record opts := mk_opts {
  o_dim : option Z; o_dof : option Z; o_collocation : option bool; o_processors : option (list Z);
  o_periodic : option (list bool); o_load : bool;
  o_basis_type : option (list basis_type); o_elements : option (list Z); o_degree : option (list Z);
  o_continuity : option (list Z); o_limits : option (list R);
  o_order : option Z; o_rule_type : option (list rule_type); o_rule_size : option (list Z); o_quadrature : option (list Z) }.
Definition no_options : opts := mk_opts None None None None None false None None None None None None None None None.
Definition given {A} (o : option A) : bool := match o with Some _ => true | None => false end.

(** The fields of struct _p_IGA that are read or written. *)
Record oiga := mk_oiga {
  og_dim : Z; og_dof : Z; og_order : Z; og_colloc : bool; og_procs : Z -> Z;
  og_axis : Z -> axis Rord; og_btype : Z -> basis_type; og_rule : Z -> rule; og_setup : bool; og_stage : Z }.

Definition with_dim v g := mk_oiga v (og_dof g) (og_order g) (og_colloc g) (og_procs g) (og_axis g) (og_btype g) (og_rule g) (og_setup g) (og_stage g).
Definition with_dof v g := mk_oiga (og_dim g) v (og_order g) (og_colloc g) (og_procs g) (og_axis g) (og_btype g) (og_rule g) (og_setup g) (og_stage g).
Definition with_order v g := mk_oiga (og_dim g) (og_dof g) v (og_colloc g) (og_procs g) (og_axis g) (og_btype g) (og_rule g) (og_setup g) (og_stage g).
Definition with_colloc v g := mk_oiga (og_dim g) (og_dof g) (og_order g) v (og_procs g) (og_axis g) (og_btype g) (og_rule g) (og_setup g) (og_stage g).
Definition with_procs v g := mk_oiga (og_dim g) (og_dof g) (og_order g) (og_colloc g) v (og_axis g) (og_btype g) (og_rule g) (og_setup g) (og_stage g).
Definition with_axis i a g := mk_oiga (og_dim g) (og_dof g) (og_order g) (og_colloc g) (og_procs g) (upd (og_axis g) i a) (og_btype g) (og_rule g) (og_setup g) (og_stage g).
Definition with_btype i t s g := mk_oiga (og_dim g) (og_dof g) (og_order g) (og_colloc g) (og_procs g) (og_axis g) (upd (og_btype g) i t) (og_rule g) s (og_stage g).
Definition with_rule i r s g := mk_oiga (og_dim g) (og_dof g) (og_order g) (og_colloc g) (og_procs g) (og_axis g) (og_btype g) (upd (og_rule g) i r) s (og_stage g).

(** CHKERRQ *)
Definition bind {A} (x : status * A) (f : A -> status * A) : status * A :=
  match x with (Ok, g) => f g | e => e end.
Definition for_each {A} (l : list Z) (f : Z -> A -> status * A) (g : A) : status * A :=
  fold_left (fun x i => bind x (f i)) l (Ok, g).
Definition when {A} (b : bool) (f : A -> status * A) (g : A) : status * A := if b then f g else (Ok, g).

(** PetscOptionsIntArray and its likes on an array of room for nmax values: the new contents, the number of values read
    and whether the option was given.  Without the option the number is 0. *)
Definition read_array {A} (o : option (list A)) (nmax : Z) (old : Z -> A) : (Z -> A) * Z * bool :=
  match o with
  | None => (old, 0, false)
  | Some l => let n := Z.min nmax (Z.of_nat (length l)) in
              (fun i => if (0 <=? i) && (i <? n) then nth (Z.to_nat i) l (old i) else old i, n, true)
  end.
(** [if (flg && n==1) for (i=1; i<dim&&i<3; i++) x[i] = x[0];] *)
Definition spread {A} (b : bool) (dim : Z) (x : Z -> A) : Z -> A :=
  if b then fun i => if (1 <=? i) && (i <? dim) && (i <? 3) then x 0 else x i else x.

Section Options.
  Variable size : Z.                               (* of the communicator *)
  Variable lit : Z -> R.                           (* the constants of the quadrature tables *)
  Variable read : oiga -> status * oiga.           (* IGARead of the file named by -iga_load *)
  Variable setup_again : oiga -> status * oiga.    (* IGASetUp *)
  Variable junk : Z -> Z -> R.                     (* contents of the knot array allocated for a direction *)

  Definition dim_or_3 (g : oiga) : Z := if 0 <? og_dim g then og_dim g else 3.

  (** src/petiga.c:320-331 IGASetDim, 355-366 IGASetDof, 463-472 IGASetOrder, 576-585 IGASetUseCollocation *)
  Definition set_dim (d : Z) (g : oiga) : status * oiga :=
    if (d <? 1) || (3 <? d) then (ErrRange, g)
    else if (0 <? og_dim g) && negb (og_dim g =? d) then (ErrState, g) else (Ok, with_dim d g).
  Definition set_dof (d : Z) (g : oiga) : status * oiga :=
    if d <? 1 then (ErrRange, g)
    else if (0 <? og_dof g) && negb (og_dof g =? d) then (ErrState, g) else (Ok, with_dof d g).
  Definition clip (x a b : Z) : Z := Z.max a (Z.min b x).
  Definition set_order (k : Z) (g : oiga) : status * oiga :=
    if k <? 0 then (ErrRange, g) else (Ok, with_order (clip k 1 4) g).
  Definition set_collocation (c : bool) (g : oiga) : status * oiga :=
    if (0 <? og_stage g) && negb (Bool.eqb (og_colloc g) c) then (ErrState, g) else (Ok, with_colloc c g).

  (** src/petiga.c:547-574 IGASetProcessors, called with 0 <= i < dim *)
  Definition set_processors (i np : Z) (g : oiga) : status * oiga :=
    if og_setup g then (ErrState, g)
    else if np <? 1 then (ErrRange, g)
    else if negb (size mod np =? 0) then (ErrRange, g)
    else
      let prod := fold_left (fun prod k => if negb (k =? i) && (0 <? og_procs g k) then prod * og_procs g k else prod) (zseq 0 (dim_or_3 g)) np in
      if negb (size mod prod =? 0) then (ErrRange, g) else (Ok, with_procs (upd (og_procs g) i np) g).

  (** src/petiga.c:483-498 IGASetBasisType *)
  Definition set_basis_type (i : Z) (t : basis_type) (g : oiga) : status * oiga :=
    if og_colloc g && negb (btype_eqb t BSpline) then (ErrRange, g)
    else if btype_eqb (og_btype g i) t then (Ok, g)
    else (Ok, with_btype i t false g).

  (** The common tail of src/petiga.c:500-545: a failing rule is left as the failing call left it. *)
  Definition put_rule (i : Z) (x : status * rule) (g : oiga) : status * oiga :=
    match x with (Ok, r) => (Ok, with_rule i r false g) | (e, r) => (e, with_rule i r (og_setup g) g) end.
  (** src/petiga.c:500-513 IGASetRuleType *)
  Definition set_rule_type (i : Z) (t : rule_type) (g : oiga) : status * oiga :=
    if rtype_eqb (ru_type (og_rule g i)) t then (Ok, g) else put_rule i (rule_set_type lit t (og_rule g i)) g.
  (** src/petiga.c:515-528 IGASetRuleSize *)
  Definition set_rule_size (i n : Z) (g : oiga) : status * oiga :=
    if ru_nqp (og_rule g i) =? n then (Ok, g) else put_rule i (rule_set_size lit n (og_rule g i)) g.
  (** src/petiga.c:530-545 IGASetQuadrature *)
  Definition set_quadrature (i q : Z) (g : oiga) : status * oiga :=
    let q := if (q =? PETSC_DECIDE) && (0 <? ax_p (og_axis g i)) then ax_p (og_axis g i) + 1 else q in
    if q <=? 0 then (ErrRange, g)
    else if ru_nqp (og_rule g i) =? q then (Ok, g) else put_rule i (rule_set_size lit q (og_rule g i)) g.

  (** src/petigaaxis.c:44-71 IGAAxisReset *)
  Definition axis_reset : axis Rord := @axis_create Rord (-1/2)%R (1/2)%R.

  (** The axis calls of src/petiga.c:831-834 *)
  Definition reinit_axis (i : Z) (w : bool) (p N : Z) (L0 L1 : R) (C : Z) (g : oiga) : status * oiga :=
    let '(s, a) := bind (axis_set_periodic w axis_reset) (fun a =>
                   bind (axis_set_degree p a) (axis_init_uniform N L0 L1 C (junk i))) in
    (s, with_axis i a g).

  (** src/petiga.c:749-764: defaults of the arrays degrs, elems and ulims; [ulims i] is the pair of the direction. *)
  Definition axis_defaults (g : oiga) (dim : Z) : (Z -> Z) * (Z -> Z) * (Z -> R * R) :=
    fold_left (fun x i => let '(degrs, elems, ulims) := x in
      let a := og_axis g i in
      let degrs := if 0 <? ax_p a then upd degrs i (ax_p a) else if 0 <? i then upd degrs i (degrs (i-1)) else degrs in
      if 1 <? ax_m a then (degrs, upd elems i (ax_nel a), upd ulims i (ax_U a (ax_p a), ax_U a (ax_m a - ax_p a)))
      else if 0 <? i then (degrs, upd elems i (elems (i-1)), upd ulims i (ulims (i-1)))
      else (degrs, elems, ulims)) (zseq 0 dim) (fun _ => 2, fun _ => 16, fun _ => (0, 1)%R).

  (** src/petiga.c:820 PetscOptionsRealArray on the six numbers of ulims. *)
  Definition read_limits (o : option (list R)) (dim : Z) (ulims : Z -> R * R) : (Z -> R * R) * Z :=
    let '(x, nl, _) := read_array o (2 * dim) (fun k => if k mod 2 =? 0 then fst (ulims (k / 2)) else snd (ulims (k / 2))) in
    (fun i => (x (2 * i), x (2 * i + 1)), nl).

  (** src/petiga.c:821-836: one pass of the loop over the directions. *)
  Definition init_direction (flg : bool) (nd ne nc nl : Z) (degrs elems conts : Z -> Z) (ulims : Z -> R * R) (i : Z) (g : oiga) : status * oiga :=
    let a := og_axis g i in
    let w := ax_periodic a in
    let p := if i <? nd then degrs i else degrs 0 in
    let N := if i <? ne then elems i else elems 0 in
    let L := if i <? nl then ulims i else ulims 0 in
    let C := if i <? nc then conts i else conts 0 in
    let p := if p <? 1 then (if 0 <? ax_p a then ax_p a else 2) else p in
    let N := if N <? 1 then (if 1 <? ax_m a then ax_nel a else 16) else N in
    if flg || ((ax_p a =? 0) || (ax_m a =? 1)) then reinit_axis i w p N (fst L) (snd L) C g else (Ok, g).

  (** src/petigaopts.c:41-49 IGAOptionsReject, called when its condition holds. *)
  Definition reject (b : bool) (g : oiga) : status * oiga := if b then (ErrRange, g) else (Ok, g).

  (** src/petiga.c:771-785: dimension, fields, collocation. *)
  Definition opt_dim (o : opts) (g : oiga) : status * oiga :=
    match o_dim o with Some d => set_dim d g | None => (Ok, g) end.
  Definition opt_dof (o : opts) (g : oiga) : status * oiga :=
    match o_dof o with Some d => set_dof d g | None => (Ok, g) end.
  Definition opt_collocation (o : opts) (g : oiga) : status * oiga :=
    bind (match o_collocation o with Some c => set_collocation c g | None => (Ok, g) end) (fun g =>
    reject (og_colloc g && (given (o_rule_type o) || given (o_rule_size o) || given (o_quadrature o))) g).

  (** src/petiga.c:786-791 *)
  Definition opt_processors (o : opts) (procs : Z -> Z) (g : oiga) : status * oiga :=
    let '(procs, n, flg) := read_array (o_processors o) (dim_or_3 g) procs in
    when flg (for_each (zseq 0 n) (fun i => when (0 <? procs i) (set_processors i (procs i)))) g.

  (** src/petiga.c:793-800 *)
  Definition opt_periodic (o : opts) (wraps : Z -> bool) (g : oiga) : status * oiga :=
    let dim := dim_or_3 g in
    let '(wraps, n, flg) := read_array (o_periodic o) dim wraps in
    let wraps := if flg && (n =? 0) then (fun i => if (0 <=? i) && (i <? dim) && (i <? 3) then true else wraps i) else wraps in
    let wraps := spread (flg && (n =? 1)) dim wraps in
    when flg (for_each (zseq 0 dim) (fun i g => let '(s, a) := axis_set_periodic (wraps i) (og_axis g i) in (s, with_axis i a g))) g.

  (** src/petiga.c:814-815 and again 848-849 *)
  Definition basis_types (o : opts) (dim : Z) (btype : Z -> basis_type) : (Z -> basis_type) * bool :=
    let '(btype, n, flg) := read_array (o_basis_type o) dim btype in
    (spread (flg && (n =? 1)) dim btype, flg).

  (** src/petiga.c:812-837 *)
  Definition opt_mesh (o : opts) (btype : Z -> basis_type) (degrs elems : Z -> Z) (ulims : Z -> R * R) (g : oiga) : status * oiga :=
    let dim := dim_or_3 g in
    let '(btype, _) := basis_types o dim btype in
    let conts := fun i => if (i <? dim) && (i <? 3) && negb (btype_eqb (btype i) BSpline) then 0 else PETSC_DECIDE in
    let '(elems, ne, flg1) := read_array (o_elements o) dim elems in
    let '(degrs, nd, flg2) := read_array (o_degree o) dim degrs in
    let '(conts, nc, _) := read_array (o_continuity o) dim conts in
    let '(ulims, nl) := read_limits (o_limits o) dim ulims in
    for_each (zseq 0 dim) (init_direction (flg1 || flg2) nd ne nc (Z.quot nl 2) degrs elems conts ulims) g.

  (** src/petiga.c:768-837: what is skipped once the IGA has been set up; the local variables are initialised at 722-764.
      The help texts and the values only they show (e.g. the local dof and order) are left out. *)
  Definition options_before_setup (o : opts) (procs : Z -> Z) (wraps : Z -> bool) (btype : Z -> basis_type) (degrs elems : Z -> Z) (ulims : Z -> R * R)
      (g : oiga) : status * oiga :=
    bind (opt_dim o g) (fun g => bind (opt_dof o g) (fun g => bind (opt_collocation o g) (fun g =>
    bind (opt_processors o procs g) (fun g => bind (opt_periodic o wraps g) (fun g =>
    if o_load o then
      bind (reject (given (o_elements o) || given (o_degree o) || given (o_continuity o) || given (o_limits o)) g) read
    else opt_mesh o btype degrs elems ulims g))))).

  (** src/petiga.c:841-852 *)
  Definition opt_order (o : opts) (g : oiga) : status * oiga :=
    match o_order o with Some k => set_order k g | None => (Ok, g) end.
  Definition opt_basis_types (o : opts) (btype : Z -> basis_type) (g : oiga) : status * oiga :=
    let '(btype, flg) := basis_types o (dim_or_3 g) btype in
    when flg (for_each (zseq 0 (dim_or_3 g)) (fun i => set_basis_type i (btype i))) g.

  (** src/petiga.c:855 and 867 *)
  Definition default_sizes (g : oiga) (rsize : Z -> Z) : Z -> Z :=
    fun i => if (i <? dim_or_3 g) && (i <? 3) && (rsize i <? 1) then ax_p (og_axis g i) + 1 else rsize i.
  (** src/petiga.c:855-859, the sizes *)
  Definition rule_sizes (o : opts) (rsize : Z -> Z) (g : oiga) : (Z -> Z) * bool :=
    let '(rsize, n, flg) := read_array (o_rule_size o) (dim_or_3 g) (default_sizes g rsize) in
    (spread (flg && (n =? 1)) (dim_or_3 g) rsize, flg).
  (** src/petiga.c:854-865 *)
  Definition opt_rules (o : opts) (rtype : Z -> rule_type) (rsize : Z -> Z) (g : oiga) : status * oiga :=
    let dim := dim_or_3 g in
    let '(rtype, n1, flg1) := read_array (o_rule_type o) dim rtype in
    let rtype := spread (flg1 && (n1 =? 1)) dim rtype in
    let '(rsize, flg2) := rule_sizes o rsize g in
    when (flg1 || flg2) (for_each (zseq 0 (Z.min dim 3)) (fun i g =>
      let nqp := if 0 <? rsize i then rsize i else if 0 <? ru_nqp (og_rule g i) then ru_nqp (og_rule g i) else ax_p (og_axis g i) + 1 in
      let g := if flg1 && flg2 then with_rule i (rule_reset (og_rule g i)) (og_setup g) g else g in
      bind (when flg1 (set_rule_type i (rtype i)) g) (fun g => when flg2 (set_rule_size i nqp) g))) g.
  (** src/petiga.c:866-872; [rsize] is the array left by the preceding block. *)
  Definition opt_quadrature (o : opts) (rsize : Z -> Z) (g : oiga) : status * oiga :=
    let dim := dim_or_3 g in
    let '(rsize, n, flg) := read_array (o_quadrature o) dim (default_sizes g rsize) in
    when flg (for_each (zseq 0 dim) (fun i =>
      let q := if i <? n then rsize i else rsize 0 in when (0 <? q) (set_quadrature i q))) g.

  (** src/petiga.c:839-872.  [btype] is read from the options a second time, with the same result. *)
  Definition options_any_time (o : opts) (btype : Z -> basis_type) (rtype : Z -> rule_type) (rsize : Z -> Z) (g : oiga) : status * oiga :=
    bind (opt_order o g) (fun g => bind (opt_basis_types o btype g) (fun g =>
    let sizes := fst (rule_sizes o rsize g) in
    bind (opt_rules o rtype rsize g) (opt_quadrature o sizes))).

  (** src/petiga.c:712-897 IGASetFromOptions, without 874-890 *)
  Definition set_from_options (o : opts) (g : oiga) : status * oiga :=
    let setup := og_setup g in
    let dim := dim_or_3 g in
    let inside {A} (x : Z -> A) (d : A) := fun i => if (0 <=? i) && (i <? dim) then x i else d in
    let procs := inside (og_procs g) PETSC_DECIDE in
    let wraps := inside (fun i => ax_periodic (og_axis g i)) false in
    let btype := inside (og_btype g) BSpline in
    let rtype := inside (fun i => ru_type (og_rule g i)) RLegendre in
    let rsize := inside (fun i => if 0 <? ru_nqp (og_rule g i) then ru_nqp (og_rule g i) else PETSC_DECIDE) PETSC_DECIDE in
    let '(degrs, elems, ulims) := axis_defaults g dim in
    bind (if og_stage g =? 0 then options_before_setup o procs wraps btype degrs elems ulims g else (Ok, g)) (fun g =>
    bind (options_any_time o btype rtype rsize g) (fun g =>
    if setup then setup_again g else (Ok, g))).

  (** src/petiga.c:32-61 IGACreate *)
  Definition new_iga : oiga :=
    mk_oiga (-1) (-1) (-1) false (fun _ => -1) (fun _ => axis_reset) (fun _ => BSpline) (fun _ => rule_create) false 0.
End Options.
