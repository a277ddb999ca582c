(** Specification side of the data handed to the BDDC preconditioner: neighbouring grid nodes, layers around the owned
    block, rows of a compressed adjacency structure. *)
From Coq Require Import ZArith List Bool.
From Verif Require Import Prelude Box GridSpec ElemSpec.
Import ListNotations.
Open Scope Z_scope.

(** u is t or next to t along one direction; in a wrapped direction d up to multiples of N d. *)
Definition beside (W : Z -> bool) (N : Z -> Z) (t u : triple) : Prop :=
  exists d s, 0 <= d < 3 /\ -1 <= s <= 1 /\
    (forall d', 0 <= d' < 3 -> d' <> d -> coord u d' = coord t d') /\
    (coord u d = coord t d + s \/ W d = true /\ (N d | coord u d - (coord t d + s))).

(** How far t lies below (negative) or above (positive) the block [start, start+width) in direction d. *)
Definition layer_of (start width : Z -> Z) (t : triple) (d : Z) : Z :=
  coord t d - Z.max (start d) (Z.min (coord t d) (start d + width d - 1)).
Definition same_layer (start width : Z -> Z) (t u : triple) : Prop :=
  forall d, 0 <= d < 3 -> layer_of start width t d = layer_of start width u d.

(** Component c of the local node t. *)
Definition local_dof (shape : Z -> Z) (bs : Z) (t : triple) (c : Z) : Z := c + bs * lin shape t.

(** The x-th row of a compressed adjacency structure. *)
Definition csr_row (xadj adjy : Z -> Z) (x : Z) : list Z := map adjy (zseq (xadj x) (xadj (x + 1) - xadj x)).

(** The node of the whole grid that a local node with offset t in the ghosted box at gstart stands for. *)
Definition global_node (N gstart : Z -> Z) (t : triple) : triple := modbox N (tadd gstart t).
