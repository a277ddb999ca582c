(** The mask of -iga_set_bddc_minimal (src/petigapcbddc.c:334-407): which nodes the near null space is restricted to.
    Definitions only.  Directions that are not periodic (there a node occurs at most once in the ghost box of a process);
    one degree of freedom stands for all of a node.  VecSetValuesBlockedLocal with ADD_VALUES adds over the processes,
    so the entries are counts; 2^m is compared with the count as an integer. *)
From Coq Require Import ZArith List Bool.
From Verif Require Import Prelude SetupModel.
Import ListNotations.
Open Scope Z_scope.

Section Mask.
  Variable dim : Z.

  (** src/petigapcbddc.c:312-314, 345-353 for one direction of one process: mid, fix, width[0], width[1] *)
  Definition mk_mid (n : Z -> range) (d : Z) : Z :=
    if d <? dim then
      let lend := r_lstart (n d) + r_lwidth (n d) in let gend := r_gstart (n d) + r_gwidth (n d) in
      r_gwidth (n d) - Z.quot (gend - lend) 2 - 1
    else 0.
  Definition mk_fix (n : Z -> range) (d : Z) : Z :=
    if d <? dim then
      let lend := r_lstart (n d) + r_lwidth (n d) in let gend := r_gstart (n d) + r_gwidth (n d) in
      if (lend =? gend - 1) || (lend =? gend) then 1 else 0
    else 0.
  Definition mk_w0 (n : Z -> range) (d : Z) : Z := if d <? dim then r_lstart (n d) - r_gstart (n d) else 0.
  Definition mk_w1 (n : Z -> range) (d : Z) : Z := if d <? dim then mk_w0 n d + r_lwidth (n d) else 1.
  Definition own_width (n : Z -> range) (d l : Z) : bool := (mk_w0 n d <=? l) && (l <? mk_w1 n d).

  (** src/petigapcbddc.c:354-387: is vals 1 at the node with local position l?  The bound of every direction uses fix[0]. *)
  Definition layer (n : Z -> range) (d d1 d2 : Z) (l : Z -> Z) : bool :=
    (0 <? mk_mid n d) && (mk_mid n d <? r_gwidth (n d) - 1 + mk_fix n 0) &&
    own_width n d2 (l d2) && own_width n d1 (l d1) && (l d =? mk_mid n d).
  Definition marked (n : Z -> range) (l : Z -> Z) : bool := layer n 0 1 2 l || layer n 1 0 2 l || layer n 2 0 1 l.

  (** The processes: their ranges per direction. *)
  Variable size : Z.
  Variable N : Z -> Z -> range.
  Definition in_ghost (n : Z -> range) (x : Z -> Z) : bool :=
    forallb (fun d => (r_gstart (n d) <=? x d) && (x d <? r_gstart (n d) + r_gwidth (n d))) [0; 1; 2].
  Definition local_pos (n : Z -> range) (x : Z -> Z) : Z -> Z := fun d => x d - r_gstart (n d).
  (** src/petigapcbddc.c:330-342: fat after its assembly, at the node x *)
  Definition fat (x : Z -> Z) : Z := Z.of_nat (length (filter (fun r => in_ghost (N r) x) (zseq 0 size))).
  (** src/petigapcbddc.c:388-390: mask after its assembly *)
  Definition marks (x : Z -> Z) : Z :=
    Z.of_nat (length (filter (fun r => in_ghost (N r) x && marked (N r) (local_pos (N r) x)) (zseq 0 size))).
  (** src/petigapcbddc.c:401-405 *)
  Definition in_mask (x : Z -> Z) : bool := 2 ^ marks x =? fat x.
End Mask.
