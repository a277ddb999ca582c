(** What a DM made from an IGA should be. *)
From Coq Require Import ZArith List Bool String.
From Verif Require Import Prelude Box GridModel GridSpec DmModel.
Import ListNotations.
Open Scope Z_scope.

(** An IGA as IGASetUp leaves it, on a grid with N d nodes in direction d. *)
Definition ready (N : Z -> Z) (g : iga) : Prop :=
  g_setup g = true /\ 1 <= g_dim g /\ grid_world (g_size g) (g_dof g) N (g_nodes g) /\
  g_vectype g <> None /\ g_mattype g <> None.

(** The name of a field, if it has one. *)
Definition name_of (g : iga) (i : Z) : option string :=
  match g_names g with Some f => f i | None => None end.

(** The entry of component c of the node t in global vectors. *)
Definition entry (N : Z -> Z) (g : iga) (t : triple) (c : Z) : Z :=
  g_dof g * ao (g_size g) (g_nodes g) (lin N t) + c.

(** The DM describes its IGA. *)
Definition describes (d : dm) (g : iga) : Prop :=
  d_bs d = g_dof g /\ d_dim d = g_dim g /\
  d_cdim d = (if 1 <=? g_nsd g then g_nsd g else g_dim g) /\ d_ltog d = Some (g_lgmap g).

(** The calls of a program on one DM; every call but the creation of vectors and matrices returned
    without error.  [usable g]: an IGA that was set up has its types and at least one component. *)
Definition usable (g : iga) : Prop := g_setup g = true -> 1 <= g_dim g /\ 1 <= g_dof g.
Inductive made : dm -> Prop :=
| made_create : made DMCreate
| made_from g d : usable g -> DMIGACreate g = (Ok, d) -> made d
| made_set_iga d g d' : made d -> usable g -> DMIGASetIGA d false g = (Ok, d') -> made d'
| made_vectype d t : made d -> made (DMSetVecType d t)
| made_mattype d t : made d -> made (DMSetMatType d t)
| made_setup opts nodes map d d' : made d -> usable (snd opts) -> DMSetUp opts nodes map d = (Ok, d') -> made d'
| made_load opts load nodes map d d' : made d -> usable (snd opts) ->
    (forall g g', load g = (Ok, g') -> usable g' /\ g_setup g' = true) ->
    DMLoad opts load nodes map d = (Ok, d') -> made d'
| made_vector ok d s d' v : made d -> DMCreateVector ok d = (s, (d', v)) -> made d'
| made_matrix ok d s d' v : made d -> DMCreateMatrix ok d = (s, (d', v)) -> made d'
| made_clone map d d' : made d -> DMClone map d = (Ok, d') -> made d'
| made_coordinate map d d' : made d -> DMCreateCoordinateDM map d = (Ok, d') -> made d'
| made_sub dbg map d nf fields is d' : made d -> DMCreateSubDM dbg map d nf fields = (Ok, (is, d')) -> made d'.
