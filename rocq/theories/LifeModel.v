(** IGASetUp and IGAClone as state transitions (src/petiga.c).  Definitions only. *)
From Coq Require Import ZArith List Bool Reals.
From Verif Require Import Prelude RealOrd AxisModel PartModel SetupModel RuleModel.
Import ListNotations.
Open Scope Z_scope.

Section SetUp.
  Context {O : KnotOrd}.
  Variable g2 : Z -> Z -> Z -> Z.
  Variable g3 : Z -> Z -> Z -> Z -> Z.
  Variables maxint size rank : Z.

  (** The part of struct _p_IGA that IGASetUp reads and writes: dim, axis[], proc_sizes[] before the
      call, the two setup flags and the index ranges (None before they are computed). *)
  Record iga := mk_iga {
    ig_dim : Z; ig_axes : Z -> axis O; ig_user : list Z;
    ig_setup : bool; ig_stage : Z; ig_layout : option (@layout) }.

  (** src/petiga.c:1111-1310 IGASetUp_Stage1 on axes that are already set up (IGAAxisSetUp is then
      the identity).  proc_sizes are overwritten only with what IGA_Partition returns. *)
  Definition iga_stage1 (g : iga) : status * iga :=
    if 1 <=? ig_stage g then (Ok, g)
    else
      let g := mk_iga (ig_dim g) (ig_axes g) (ig_user g) (ig_setup g) 1 (ig_layout g) in
      match stage1 g2 g3 maxint size rank (ig_dim g) (ig_axes g) (ig_user g) with
      | (Ok, Some ly) => (Ok, mk_iga (ig_dim g) (ig_axes g) (ig_user g) (ig_setup g) 1 (Some ly))
      | (Ok, None) => (ErrState, g)
      | (e, _) => (e, g)
      end.

  (** Stages 2 and 3 (src/petiga.c:1313-1374, 1467-1487): their status is a parameter, they do not
      touch the fields above. *)
  Variables stage2 stage3 : iga -> status.

  (** src/petiga.c:1450-1493 IGASetUp *)
  Definition iga_setup (g : iga) : status * iga :=
    if ig_setup g then (Ok, g)
    else if ig_dim g <? 1 then (ErrState, g)
    else
      let g := mk_iga (ig_dim g) (ig_axes g) (ig_user g) true (ig_stage g) (ig_layout g) in
      match iga_stage1 g with
      | (Ok, g) => match stage2 g with
                   | Ok => (stage3 g, mk_iga (ig_dim g) (ig_axes g) (ig_user g) (ig_setup g) 3 (ig_layout g))
                   | e => (e, g)
                   end
      | e => e
      end.
End SetUp.

(** src/petiga.c:1495-1565 IGAClone, the quadrature of one direction: the axis and the rule are
    copied (lines 1517-1518) and the basis is initialised again by IGASetUp (line 1482). *)
Definition clone_quadrature (lit : Z -> R) (maxreal : R) (bspline : bool) (p m : Z) (U : Z -> R) (spans : list Z) (r : rule) :=
  init_quadrature lit maxreal bspline p m U spans (rule_copy r).
