(** Theorems about the assembly drivers (C81-C85). *)
From Coq Require Import ZArith List Bool Lia Reals Lra Permutation FunctionalExtensionality.
From Coq Require Import ZifyBool ZifyNat.
From Verif Require Import Prelude RealOrd AxisModel AxisSpec AxisInitModel PartModel PartSpec PartProofs SetupModel SetupProofs SetupProps
  Box GridModel GridSpec GridProofs GridProofs2 GridSetup GridProps ElemModel ElemSpec ElemProofs AsmProofs ElemProps RuleProps
  BCModel BCSpec BCProofs BCProofs2 BCProps DrvModel DrvSpec DrvProofs DrvProofs2 DrvProofs3.
From Verif Require Import Box.
Import ListNotations.
Open Scope Z_scope.

(** The element loop with the form loop inside, on one process: every element of the process once, in each all
    the flagged faces of the domain it touches and then its interior, and IGAEndElement is happy. *)
Theorem C81_loops : forall e0 dim s w sizes visit, 1 <= dim <= 3 -> (forall i, 0 <= i < dim -> 0 <= w i) ->
  let e := begin_element (elem_init e0 dim s w sizes) in
  exists e', nested_loop (Z.to_nat (el_count e + 1)) (Z.to_nat (2 * dim + 3)) visit e =
    Some (map (fun t => (t, pieces dim (el_sizes e) visit t)) (rank_elements e0 dim s w sizes), e') /\ end_element e' = Ok.
Proof.
  intros e0 dim s w sizes visit Hdim Hw e. destruct (element_loop_box e0 dim s w sizes Hdim Hw) as (e' & E & I). exists e'.
  split; [|unfold end_element; rewrite I; reflexivity]. unfold rank_elements. fold e. fold e in E. rewrite E.
  exact (nested_loop_spec visit _ e _ e' ltac:(cbn; lia) eq_refl eq_refl E).
Qed.

Section Drivers.
  Variable O : KnotOrd.
  Variables (g2 : Z -> Z -> Z -> Z) (g3 : Z -> Z -> Z -> Z -> Z) (maxint size dim : Z).
  Variable axes : Z -> axis O.
  Variable user : list Z.
  Variable LY : Z -> layout.
  Variable dof : Z.
  Variable e0 : Z -> elem.                       (* whatever the element iterators held before *)
  Variable sizes : Z -> Z -> Z.
  Hypothesis Hset : setup_ok g2 g3 maxint size dim axes user LY.
  Hypothesis Hdof : 1 <= dof.
  Variable value load : Z -> Z -> list (Z * R).  (* what IGASetBoundaryValue/Load stored *)
  Variable area : triple -> Z -> Z -> R.
  Variable visit : Z -> Z -> bool.               (* IGASetBoundaryForm *)
  Variable npts : triple -> form_visit -> Z.
  Variable JW : triple -> form_visit -> Z -> R.
  Hypothesis Hvalue : forall d s, NoDup (map fst (value d s)) /\ forall k, In k (map fst (value d s)) -> 0 <= k.
  Hypothesis Hload : forall d s, NoDup (map fst (load d s)) /\ forall k, In k (map fst (load d s)) -> 0 <= k.
  Hypothesis Hnpts : forall e f, 1 <= npts e f.
  Variable TV : option (Z -> R).                 (* IGASetFixTable's vector *)
  Variable L0 : Z -> Z -> R.                      (* what the local work arrays held before *)
  Variable order : list Z.                       (* arrival order of the off-process contributions *)
  Hypothesis Horder : Permutation order (zseq 0 size).

  Let G := fun r => grid_of dof (ly_node (LY r)).
  Let N := fun d => if d <? dim then ax_nnp (axes d) else 1.
  Let nel := fun d => if d <? dim then ax_nel (axes d) else 1.
  Let nen := fun d => if d <? dim then ax_p (axes d) + 1 else 1.
  Let first := fun e d => if d <? dim then span_at (axes d) (coord e d) - ax_p (axes d) else 0.
  Let per := fun d => ax_periodic (axes d).
  Let elems := fun r => rank_elements (e0 r) dim (ly_elem_start (LY r)) (ly_elem_width (LY r)) (sizes r).
  Let mapping := fun r e => closure (elem_off dim axes e) (basis_nen dim axes) (gr_gstart (G r)) (gr_gwidth (G r)).
  (** Position of component c of node t in a global vector, and the nodal values a vector holds. *)
  Let ix := fun (t : triple) (c : Z) => dof * ao size G (lin N t) + c.
  Let field := fun (V : Z -> R) (t : triple) (c : Z) => V (ix t c).
  Let T : option nodal := option_map field TV.
  Let presc := node_prescribed dim per N value T.
  Let loads := fun e a c => match loaded dim per nel (coord e) nen load (area e) a c with Some w => w | None => 0%R end.
  Let n := vol nen * dof.
  Let zeros := fun _ : Z => 0%R.
  Let heldU := fun e U => earr dof N nen first e (held presc (field U)).
  Let freeV := fun e V => earr dof N nen first e (released presc (field V)).
  (** What a driver assembles from global input vectors. *)
  Let vec := fun K ins => compute_vector size G dof elems mapping K (opt_list TV ++ ins) L0 order.
  Let mat := fun K ins => compute_matrix size G dof elems mapping K (opt_list TV ++ ins) L0 order.

  Lemma vec_serial K ins t c : in_box zero3 N t -> 0 <= c < dof ->
    vec K ins (ix t c) = serial_vector N nen first dof nel K (opt_list T ++ map field ins) t c.
  Proof.
    intros Ht Hc.
    assert (HF : Forall2 (fun V x => forall t c, in_box zero3 N t -> 0 <= c < dof -> V (dof * ao size G (lin N t) + c) = x t c) (opt_list TV ++ ins) (opt_list T ++ map field ins)).
    { apply Forall2_app; [unfold T; destruct TV; constructor; auto|]. induction ins; constructor; auto. }
    exact (proj1 (C21_C51_assembly_is_serial_sum O g2 g3 maxint size dim axes user LY dof e0 sizes Hset Hdof K K (fun _ => 0) (fun _ _ => 0%R) (fun _ _ _ _ => 0%R)
      (opt_list TV ++ ins) (opt_list T ++ map field ins) L0 order Horder HF) t c Ht Hc).
  Qed.
  Lemma mat_serial K ins t c u d : in_box zero3 N t -> 0 <= c < dof -> in_box zero3 N u -> 0 <= d < dof ->
    mat K ins (ix t c) (ix u d) = serial_matrix N nen first dof nel K (opt_list T ++ map field ins) t c u d.
  Proof.
    intros Ht Hc Hu Hd.
    assert (HF : Forall2 (fun V x => forall t c, in_box zero3 N t -> 0 <= c < dof -> V (dof * ao size G (lin N t) + c) = x t c) (opt_list TV ++ ins) (opt_list T ++ map field ins)).
    { apply Forall2_app; [unfold T; destruct TV; constructor; auto|]. induction ins; constructor; auto. }
    exact (proj1 (proj2 (C21_C51_assembly_is_serial_sum O g2 g3 maxint size dim axes user LY dof e0 sizes Hset Hdof K K (fun _ => 0) (fun _ _ => 0%R) (fun _ _ _ _ => 0%R)
      (opt_list TV ++ ins) (opt_list T ++ map field ins) L0 order Horder HF)) t c u d Ht Hc Hu Hd).
  Qed.
  Lemma some_T : is_some TV = is_some T.
  Proof. unfold T. destruct TV; reflexivity. Qed.
  Lemma vHnen : forall d, 0 <= d < 3 -> 1 <= nen d.
  Proof. exact (Hnen O g2 g3 maxint size dim axes user LY dof Hset value load visit Hvalue Hload T). Qed.
  Lemma vHN : forall d, 0 <= d < 3 -> 1 <= N d.
  Proof. exact (HN O g2 g3 maxint size dim axes user LY dof Hset value load visit Hvalue Hload T). Qed.

(** ** C81: what each driver assembles *)
Theorem C81_vector : forall Vector ins t c, in_box zero3 N t -> 0 <= c < dof ->
  vec (k_vector dim dof nen nel visit npts JW Vector) ins (ix t c) =
  plain_vector dim dof N nen nel first visit npts JW (fun e f q => Vector e f q zeros) t c.
Proof. intros. rewrite vec_serial by auto. exact (s_vector O g2 g3 maxint size dim axes user LY dof Hset Hdof value load area visit npts JW Hvalue Hload Hnpts T Vector _ t c ltac:(auto)). Qed.
Theorem C81_matrix : forall Matrix ins t c u d, in_box zero3 N t -> 0 <= c < dof -> in_box zero3 N u -> 0 <= d < dof ->
  mat (k_matrix dim dof nen nel visit npts JW Matrix) ins (ix t c) (ix u d) =
  plain_matrix dim dof N nen nel first visit npts JW (fun e f q => Matrix e f q zeros) t c u d.
Proof. intros. rewrite mat_serial by auto. exact (s_matrix O g2 g3 maxint size dim axes user LY dof Hset Hdof value load area visit npts JW Hvalue Hload Hnpts T Matrix _ t c u d ltac:(auto) ltac:(auto)). Qed.
Theorem C81_system_matrix : forall SysK SysF t c u d, in_box zero3 N t -> 0 <= c < dof -> in_box zero3 N u -> 0 <= d < dof ->
  mat (fun e ins => fst (k_system dim dof nen nel per visit value load area (is_some TV) npts JW SysK SysF e ins)) [] (ix t c) (ix u d) =
  jacobian dim dof N nen nel first visit npts JW presc (fun e f q => SysK e f q zeros) t c u d.
Proof. intros. rewrite mat_serial by auto. rewrite some_T. exact (s_system_matrix O g2 g3 maxint size dim axes user LY dof Hset Hdof value load area visit npts JW Hvalue Hload Hnpts T SysK SysF _ t c u d ltac:(auto) ltac:(auto)). Qed.
Theorem C81_system_vector : forall SysK SysF t c, in_box zero3 N t -> 0 <= c < dof ->
  vec (fun e ins => snd (k_system dim dof nen nel per visit value load area (is_some TV) npts JW SysK SysF e ins)) [] (ix t c) =
  system_rhs dim dof N nen nel first visit npts JW presc loads (fun e f q => SysK e f q zeros) (fun e f q => SysF e f q zeros) t c.
Proof. intros. rewrite vec_serial by auto. rewrite some_T. exact (s_system_vector O g2 g3 maxint size dim axes user LY dof Hset Hdof value load area visit npts JW Hvalue Hload Hnpts T SysK SysF _ t c ltac:(auto)). Qed.
Theorem C81_function : forall cb U t c, in_box zero3 N t -> 0 <= c < dof ->
  vec (k_function dim dof nen nel per visit value load area (is_some TV) npts JW cb) [U] (ix t c) =
  residual dim dof N nen nel first visit npts JW presc loads (fun e f q => cb e f q (heldU e U) zeros) (field U) t c.
Proof. intros. rewrite vec_serial by auto. rewrite some_T. exact (s_function O g2 g3 maxint size dim axes user LY dof Hset Hdof value load area visit npts JW Hvalue Hload Hnpts T cb (field U) t c ltac:(auto)). Qed.
Theorem C81_jacobian : forall cb U t c u d, in_box zero3 N t -> 0 <= c < dof -> in_box zero3 N u -> 0 <= d < dof ->
  mat (k_jacobian dim dof nen nel per visit value load area (is_some TV) npts JW cb) [U] (ix t c) (ix u d) =
  jacobian dim dof N nen nel first visit npts JW presc (fun e f q => cb e f q (heldU e U) zeros) t c u d.
Proof. intros. rewrite mat_serial by auto. rewrite some_T. exact (s_jacobian O g2 g3 maxint size dim axes user LY dof Hset Hdof value load area visit npts JW Hvalue Hload Hnpts T cb (field U) t c u d ltac:(auto) ltac:(auto)). Qed.
Theorem C81_ifunction : forall cb sh tm V U t c, in_box zero3 N t -> 0 <= c < dof ->
  vec (k_ifunction dim dof nen nel per visit value load area (is_some TV) npts JW cb sh tm) [V; U] (ix t c) =
  residual dim dof N nen nel first visit npts JW presc loads (fun e f q => cb e f q sh (freeV e V) tm (heldU e U) zeros) (field U) t c.
Proof. intros. rewrite vec_serial by auto. rewrite some_T. exact (s_ifunction O g2 g3 maxint size dim axes user LY dof Hset Hdof value load area visit npts JW Hvalue Hload Hnpts T cb sh tm (field V) (field U) t c ltac:(auto)). Qed.
Theorem C81_ijacobian : forall cb sh tm V U t c u d, in_box zero3 N t -> 0 <= c < dof -> in_box zero3 N u -> 0 <= d < dof ->
  mat (k_ijacobian dim dof nen nel per visit value load area (is_some TV) npts JW cb sh tm) [V; U] (ix t c) (ix u d) =
  jacobian dim dof N nen nel first visit npts JW presc (fun e f q => cb e f q sh (freeV e V) tm (heldU e U) zeros) t c u d.
Proof. intros. rewrite mat_serial by auto. rewrite some_T. exact (s_ijacobian O g2 g3 maxint size dim axes user LY dof Hset Hdof value load area visit npts JW Hvalue Hload Hnpts T cb sh tm (field V) (field U) t c u d ltac:(auto) ltac:(auto)). Qed.
Theorem C81_iefunction : forall cb sh tm tp V U U0 t c, in_box zero3 N t -> 0 <= c < dof ->
  vec (k_iefunction dim dof nen nel per visit value load area (is_some TV) npts JW cb sh tm tp) [V; U; U0] (ix t c) =
  residual dim dof N nen nel first visit npts JW presc loads (fun e f q => cb e f q sh (freeV e V) tm (heldU e U) tp (heldU e U0) zeros) (field U) t c.
Proof. intros. rewrite vec_serial by auto. rewrite some_T. exact (s_iefunction O g2 g3 maxint size dim axes user LY dof Hset Hdof value load area visit npts JW Hvalue Hload Hnpts T cb sh tm tp (field V) (field U) (field U0) t c ltac:(auto)). Qed.
Theorem C81_iejacobian : forall cb sh tm tp V U U0 t c u d, in_box zero3 N t -> 0 <= c < dof -> in_box zero3 N u -> 0 <= d < dof ->
  mat (k_iejacobian dim dof nen nel per visit value load area (is_some TV) npts JW cb sh tm tp) [V; U; U0] (ix t c) (ix u d) =
  jacobian dim dof N nen nel first visit npts JW presc (fun e f q => cb e f q sh (freeV e V) tm (heldU e U) tp (heldU e U0) zeros) t c u d.
Proof. intros. rewrite mat_serial by auto. rewrite some_T. exact (s_iejacobian O g2 g3 maxint size dim axes user LY dof Hset Hdof value load area visit npts JW Hvalue Hload Hnpts T cb sh tm tp (field V) (field U) (field U0) t c u d ltac:(auto) ltac:(auto)). Qed.
Theorem C81_rhsfunction : forall cb tm U t c, in_box zero3 N t -> 0 <= c < dof ->
  vec (k_rhsfunction dim dof nen nel per visit value load area (is_some TV) npts JW cb tm) [U] (ix t c) =
  residual dim dof N nen nel first visit npts JW presc loads (fun e f q => cb e f q tm (heldU e U) zeros) (field U) t c.
Proof. intros. rewrite vec_serial by auto. rewrite some_T. exact (s_rhsfunction O g2 g3 maxint size dim axes user LY dof Hset Hdof value load area visit npts JW Hvalue Hload Hnpts T cb tm (field U) t c ltac:(auto)). Qed.
Theorem C81_rhsjacobian : forall cb tm U t c u d, in_box zero3 N t -> 0 <= c < dof -> in_box zero3 N u -> 0 <= d < dof ->
  mat (k_rhsjacobian dim dof nen nel per visit value load area (is_some TV) npts JW cb tm) [U] (ix t c) (ix u d) =
  jacobian dim dof N nen nel first visit npts JW presc (fun e f q => cb e f q tm (heldU e U) zeros) t c u d.
Proof. intros. rewrite mat_serial by auto. rewrite some_T. exact (s_rhsjacobian O g2 g3 maxint size dim axes user LY dof Hset Hdof value load area visit npts JW Hvalue Hload Hnpts T cb tm (field U) t c u d ltac:(auto) ltac:(auto)). Qed.
Theorem C81_i2function : forall cb sa sv tm A V U t c, in_box zero3 N t -> 0 <= c < dof ->
  vec (k_i2function dim dof nen nel per visit value load area (is_some TV) npts JW cb sa sv tm) [A; V; U] (ix t c) =
  residual dim dof N nen nel first visit npts JW presc loads (fun e f q => cb e f q sa (freeV e A) sv (freeV e V) tm (heldU e U) zeros) (field U) t c.
Proof. intros. rewrite vec_serial by auto. rewrite some_T. exact (s_i2function O g2 g3 maxint size dim axes user LY dof Hset Hdof value load area visit npts JW Hvalue Hload Hnpts T cb sa sv tm (field A) (field V) (field U) t c ltac:(auto)). Qed.
Theorem C81_i2jacobian : forall cb sa sv tm A V U t c u d, in_box zero3 N t -> 0 <= c < dof -> in_box zero3 N u -> 0 <= d < dof ->
  mat (k_i2jacobian dim dof nen nel per visit value load area (is_some TV) npts JW cb sa sv tm) [A; V; U] (ix t c) (ix u d) =
  jacobian dim dof N nen nel first visit npts JW presc (fun e f q => cb e f q sa (freeV e A) sv (freeV e V) tm (heldU e U) zeros) t c u d.
Proof. intros. rewrite mat_serial by auto. rewrite some_T. exact (s_i2jacobian O g2 g3 maxint size dim axes user LY dof Hset Hdof value load area visit npts JW Hvalue Hload Hnpts T cb sa sv tm (field A) (field V) (field U) t c u d ltac:(auto) ltac:(auto)). Qed.

(** ** C82: the assembled Jacobian differentiates the assembled residual *)
  (** For every element, form visit and quadrature point. *)
  Let at_points := fun P : triple -> form_visit -> Z -> Prop =>
    forall e f q, In e (box zero3 nel) -> In f (pieces dim nel visit e) -> 0 <= q < npts e f -> P e f q.
  (** [J] is the derivative at 0 of [F] along direction [Y], row by row. *)
  Let differentiates := fun (J : Z -> Z -> R) (F : R -> Z -> R) (Y : Z -> R) => forall t c, in_box zero3 N t -> 0 <= c < dof ->
    derivable_pt_lim (fun s => F s (ix t c)) 0 (node_row N dof (fun t c u d => J (ix t c) (ix u d)) (field Y) t c).

  Lemma held_move e U s Y : heldU e (along U s Y) = along (heldU e U) s (freeV e Y).
  Proof.
    unfold heldU, freeV. change (field (along U s Y)) with (nalong (field U) s (field Y)).
    rewrite held_along. exact (earr_along dof N nen nel first visit npts JW presc loads Hdof vHnen vHN (held presc (field U)) s (released presc (field Y)) e).
  Qed.
  Lemma free_move e U s Y : freeV e (along U s Y) = along (freeV e U) s (freeV e Y).
  Proof.
    unfold freeV. change (field (along U s Y)) with (nalong (field U) s (field Y)).
    rewrite released_along. exact (earr_along dof N nen nel first visit npts JW presc loads Hdof vHnen vHN (released presc (field U)) s (released presc (field Y)) e).
  Qed.

  Lemma dpl_finish gs gJ U Y F J :
    (forall s t c, in_box zero3 N t -> 0 <= c < dof -> F s (ix t c) = residual dim dof N nen nel first visit npts JW presc loads (gs s) (field (along U s Y)) t c) ->
    (forall t c u d, in_box zero3 N t -> 0 <= c < dof -> in_box zero3 N u -> 0 <= d < dof -> J (ix t c) (ix u d) = jacobian dim dof N nen nel first visit npts JW presc gJ t c u d) ->
    (forall e f q i, In e (box zero3 nel) -> In f (pieces dim nel visit e) -> 0 <= q < npts e f -> 0 <= i < n ->
       derivable_pt_lim (fun s => gs s e f q i) 0 (rsum (fun j => gJ e f q (i * n + j)%Z * freeV e Y j)%R (zseq 0 n))) ->
    differentiates J F Y.
  Proof.
    intros HF HJ HP t c Ht Hc. eapply dpl_ext; [intros s; exact (HF s t c Ht Hc)|].
    eapply dpl_eq; [|exact (residual_derivative dim dof N nen nel first visit npts JW presc loads Hdof vHnen vHN gs gJ (field U) (field Y) t c Ht Hc HP)].
    apply (node_row_ext dof N nen nel first visit npts JW presc loads vHnen vHN). intros u d Hu Hd. rewrite HJ by auto. reflexivity.
  Qed.

Theorem C82_function : forall Function Jacobian U Y,
  at_points (fun e f q => is_jacobian n (fun X => Function e f q X zeros) (along (heldU e U)) (Jacobian e f q (heldU e U) zeros)) ->
  differentiates (mat (k_jacobian dim dof nen nel per visit value load area (is_some TV) npts JW Jacobian) [U]) (fun s => vec (k_function dim dof nen nel per visit value load area (is_some TV) npts JW Function) [along U s Y]) Y.
Proof.
  intros Function Jacobian U Y H.
  apply (dpl_finish (fun s e f q => Function e f q (heldU e (along U s Y)) zeros) (fun e f q => Jacobian e f q (heldU e U) zeros) U Y).
  - intros s t c Ht Hc. apply C81_function; auto.
  - intros t c u d Ht Hc Hu Hd. apply C81_jacobian; auto.
  - intros e f q i He Hf Hq Hi. eapply dpl_ext; [|exact (H e f q He Hf Hq (freeV e Y) i Hi)].
    intros s. cbv beta. rewrite held_move. reflexivity.
Qed.
Theorem C82_ifunction : forall IFunction IJacobian a0 a tm V U Y,
  at_points (fun e f q => is_jacobian n (fun X => IFunction e f q a0 (fst X) tm (snd X) zeros)
    (fun s w => (along (freeV e V) (a * s) w, along (heldU e U) s w)) (IJacobian e f q a (freeV e V) tm (heldU e U) zeros)) ->
  differentiates (mat (k_ijacobian dim dof nen nel per visit value load area (is_some TV) npts JW IJacobian a tm) [V; U])
    (fun s => vec (k_ifunction dim dof nen nel per visit value load area (is_some TV) npts JW IFunction a0 tm) [along V (a * s) Y; along U s Y]) Y.
Proof.
  intros IFunction IJacobian a0 a tm V U Y H.
  apply (dpl_finish (fun s e f q => IFunction e f q a0 (freeV e (along V (a * s) Y)) tm (heldU e (along U s Y)) zeros)
    (fun e f q => IJacobian e f q a (freeV e V) tm (heldU e U) zeros) U Y).
  - intros s t c Ht Hc. apply C81_ifunction; auto.
  - intros t c u d Ht Hc Hu Hd. apply C81_ijacobian; auto.
  - intros e f q i He Hf Hq Hi. eapply dpl_ext; [|exact (H e f q He Hf Hq (freeV e Y) i Hi)].
    intros s. cbv beta. rewrite held_move, free_move. reflexivity.
Qed.
Theorem C82_iefunction : forall IEFunction IEJacobian a0 a tm tp V U U0 Y,
  at_points (fun e f q => is_jacobian n (fun X => IEFunction e f q a0 (fst X) tm (snd X) tp (heldU e U0) zeros)
    (fun s w => (along (freeV e V) (a * s) w, along (heldU e U) s w)) (IEJacobian e f q a (freeV e V) tm (heldU e U) tp (heldU e U0) zeros)) ->
  differentiates (mat (k_iejacobian dim dof nen nel per visit value load area (is_some TV) npts JW IEJacobian a tm tp) [V; U; U0])
    (fun s => vec (k_iefunction dim dof nen nel per visit value load area (is_some TV) npts JW IEFunction a0 tm tp) [along V (a * s) Y; along U s Y; U0]) Y.
Proof.
  intros IEFunction IEJacobian a0 a tm tp V U U0 Y H.
  apply (dpl_finish (fun s e f q => IEFunction e f q a0 (freeV e (along V (a * s) Y)) tm (heldU e (along U s Y)) tp (heldU e U0) zeros)
    (fun e f q => IEJacobian e f q a (freeV e V) tm (heldU e U) tp (heldU e U0) zeros) U Y).
  - intros s t c Ht Hc. apply C81_iefunction; auto.
  - intros t c u d Ht Hc Hu Hd. apply C81_iejacobian; auto.
  - intros e f q i He Hf Hq Hi. eapply dpl_ext; [|exact (H e f q He Hf Hq (freeV e Y) i Hi)].
    intros s. cbv beta. rewrite held_move, free_move. reflexivity.
Qed.
Theorem C82_rhsfunction : forall RHSFunction RHSJacobian tm U Y,
  at_points (fun e f q => is_jacobian n (fun X => RHSFunction e f q tm X zeros) (along (heldU e U)) (RHSJacobian e f q tm (heldU e U) zeros)) ->
  differentiates (mat (k_rhsjacobian dim dof nen nel per visit value load area (is_some TV) npts JW RHSJacobian tm) [U]) (fun s => vec (k_rhsfunction dim dof nen nel per visit value load area (is_some TV) npts JW RHSFunction tm) [along U s Y]) Y.
Proof.
  intros Function Jacobian tm U Y H.
  apply (dpl_finish (fun s e f q => Function e f q tm (heldU e (along U s Y)) zeros) (fun e f q => Jacobian e f q tm (heldU e U) zeros) U Y).
  - intros s t c Ht Hc. apply C81_rhsfunction; auto.
  - intros t c u d Ht Hc Hu Hd. apply C81_rhsjacobian; auto.
  - intros e f q i He Hf Hq Hi. eapply dpl_ext; [|exact (H e f q He Hf Hq (freeV e Y) i Hi)].
    intros s. cbv beta. rewrite held_move. reflexivity.
Qed.
Theorem C82_i2function : forall I2Function I2Jacobian a0 v0 a v tm A V U Y,
  at_points (fun e f q => is_jacobian n (fun X => I2Function e f q a0 (fst (fst X)) v0 (snd (fst X)) tm (snd X) zeros)
    (fun s w => (along (freeV e A) (a * s) w, along (freeV e V) (v * s) w, along (heldU e U) s w))
    (I2Jacobian e f q a (freeV e A) v (freeV e V) tm (heldU e U) zeros)) ->
  differentiates (mat (k_i2jacobian dim dof nen nel per visit value load area (is_some TV) npts JW I2Jacobian a v tm) [A; V; U])
    (fun s => vec (k_i2function dim dof nen nel per visit value load area (is_some TV) npts JW I2Function a0 v0 tm) [along A (a * s) Y; along V (v * s) Y; along U s Y]) Y.
Proof.
  intros I2Function I2Jacobian a0 v0 a v tm A V U Y H.
  apply (dpl_finish (fun s e f q => I2Function e f q a0 (freeV e (along A (a * s) Y)) v0 (freeV e (along V (v * s) Y)) tm (heldU e (along U s Y)) zeros)
    (fun e f q => I2Jacobian e f q a (freeV e A) v (freeV e V) tm (heldU e U) zeros) U Y).
  - intros s t c Ht Hc. apply C81_i2function; auto.
  - intros t c u d Ht Hc Hu Hd. apply C81_i2jacobian; auto.
  - intros e f q i He Hf Hq Hi. eapply dpl_ext; [|exact (H e f q He Hf Hq (freeV e Y) i Hi)].
    intros s. cbv beta. rewrite held_move, !free_move. reflexivity.
Qed.

(** ** C83: linear problems posed either way *)
Theorem C83_same_equations : forall SysK SysF Function U t c, in_box zero3 N t -> 0 <= c < dof ->
  at_points (fun e f q => forall X i, 0 <= i < n ->
    Function e f q X zeros i = (rsum (fun j => SysK e f q zeros (i * n + j)%Z * X j) (zseq 0 n) - SysF e f q zeros i)%R) ->
  vec (k_function dim dof nen nel per visit value load area (is_some TV) npts JW Function) [U] (ix t c) =
  (node_row N dof (fun t c u d => mat (fun e ins => fst (k_system dim dof nen nel per visit value load area (is_some TV) npts JW SysK SysF e ins)) [] (ix t c) (ix u d)) (field U) t c -
   vec (fun e ins => snd (k_system dim dof nen nel per visit value load area (is_some TV) npts JW SysK SysF e ins)) [] (ix t c))%R.
Proof.
  intros SysK SysF Function U t c Ht Hc H. rewrite C81_function, C81_system_vector by auto.
  rewrite (system_residual dim dof N nen nel first visit npts JW presc loads Hdof vHnen vHN (fun e f q => SysK e f q zeros) (fun e f q => SysF e f q zeros)) by
    (auto; intros e f q i He Hf Hq Hi; apply (H e f q He Hf Hq); exact Hi).
  f_equal. apply (node_row_ext dof N nen nel first visit npts JW presc loads vHnen vHN). intros u d Hu Hd. rewrite C81_system_matrix by auto. reflexivity.
Qed.
Theorem C83_same_matrix : forall SysK SysF Jacobian U t c u d, in_box zero3 N t -> 0 <= c < dof -> in_box zero3 N u -> 0 <= d < dof ->
  at_points (fun e f q => forall X k, 0 <= k < n * n -> Jacobian e f q X zeros k = SysK e f q zeros k) ->
  mat (k_jacobian dim dof nen nel per visit value load area (is_some TV) npts JW Jacobian) [U] (ix t c) (ix u d) =
  mat (fun e ins => fst (k_system dim dof nen nel per visit value load area (is_some TV) npts JW SysK SysF e ins)) [] (ix t c) (ix u d).
Proof.
  intros SysK SysF Jacobian U t c u d Ht Hc Hu Hd H. rewrite C81_jacobian, C81_system_matrix by auto.
  unfold jacobian. destruct (presc t c); auto. destruct (presc u d); auto.
  unfold plain_matrix, scatter2. apply scatter_ext. intros e a He Ha _. apply rsum_ext. intros b Hb.
  destruct (triple_eqb _ u); auto. unfold integral. apply rsum_ext. intros f Hf. apply rsum_ext. intros q Hq. apply in_zseq in Hq.
  f_equal. apply (H e f q He Hf ltac:(lia)). apply In_box in Hb.
  apply (mat_index O dim axes dof); apply (index_lt dof N nen nel first visit presc Hdof vHnen vHN); auto.
Qed.

(** ** C85: a right-hand side posed with IGASetFormRHSFunction against the same problem posed with IGASetFormIFunction *)
Theorem C85_rhs_against_ifunction : forall Mass RHSFunction IFunction a tm V U t c, in_box zero3 N t -> 0 <= c < dof ->
  at_points (fun e f q => forall Xv Xu i, 0 <= i < n ->
    IFunction e f q a Xv tm Xu zeros i = (Mass e f q Xv i - RHSFunction e f q tm Xu zeros i)%R) ->
  (vec (k_ifunction dim dof nen nel per visit value load area (is_some TV) npts JW IFunction a tm) [V; U] (ix t c) + vec (k_rhsfunction dim dof nen nel per visit value load area (is_some TV) npts JW RHSFunction tm) [U] (ix t c))%R =
  match presc t c with
  | Some v => (2 * (multiplicity N nen nel first t * (field U t c - v)))%R
  | None => (plain_vector dim dof N nen nel first visit npts JW (fun e f q => Mass e f q (freeV e V)) t c - 2 * plain_load N nen nel first loads t c)%R
  end.
Proof.
  intros Mass RHSFunction IFunction a tm V U t c Ht Hc H. rewrite C81_ifunction, C81_rhsfunction by auto. unfold residual.
  destruct (presc t c) as [v|]; [unfold field; lra|].
  assert (E : (plain_vector dim dof N nen nel first visit npts JW (fun e f q => IFunction e f q a (freeV e V) tm (heldU e U) zeros) t c +
    plain_vector dim dof N nen nel first visit npts JW (fun e f q => RHSFunction e f q tm (heldU e U) zeros) t c =
    plain_vector dim dof N nen nel first visit npts JW (fun e f q => Mass e f q (freeV e V)) t c)%R).
  { unfold plain_vector. rewrite scatter_plus. apply scatter_ext. intros e b He Hb _. unfold integral. rewrite <- rsum_plus.
    apply rsum_ext. intros f Hf. rewrite <- rsum_plus. apply rsum_ext. intros q Hq. apply in_zseq in Hq.
    rewrite (H e f q He Hf ltac:(lia)); [lra|]. apply (index_lt dof N nen nel first visit presc Hdof vHnen vHN); auto. }
  lra.
Qed.
(** Without conditions at the node the two are the same equation. *)
Theorem C85_free_nodes_partial : forall Mass RHSFunction IFunction a tm V U t c, in_box zero3 N t -> 0 <= c < dof ->
  at_points (fun e f q => forall Xv Xu i, 0 <= i < n ->
    IFunction e f q a Xv tm Xu zeros i = (Mass e f q Xv i - RHSFunction e f q tm Xu zeros i)%R) ->
  presc t c = None -> plain_load N nen nel first loads t c = 0%R ->
  vec (k_ifunction dim dof nen nel per visit value load area (is_some TV) npts JW IFunction a tm) [V; U] (ix t c) =
  (plain_vector dim dof N nen nel first visit npts JW (fun e f q => Mass e f q (freeV e V)) t c - vec (k_rhsfunction dim dof nen nel per visit value load area (is_some TV) npts JW RHSFunction tm) [U] (ix t c))%R.
Proof.
  intros Mass RHSFunction IFunction a tm V U t c Ht Hc H Hp Hl.
  pose proof (C85_rhs_against_ifunction Mass RHSFunction IFunction a tm V U t c Ht Hc H) as K. rewrite Hp, Hl in K. lra.
Qed.
End Drivers.

(** ** Example data: quadratic B-splines on three elements, two processes, one unknown, value 1 prescribed at the
    left end, load 1 at the right end. *)
Definition ex_value : Z -> Z -> list (Z * R) := fun d s => if s =? 0 then [(0, 1%R)] else [].
Definition ex_load : Z -> Z -> list (Z * R) := fun d s => if s =? 0 then [] else [(0, 1%R)].
Lemma ex_value_ok : forall d s, NoDup (map fst (ex_value d s)) /\ forall k, In k (map fst (ex_value d s)) -> 0 <= k.
Proof. intros d s. unfold ex_value. destruct (s =? 0); cbn; split; try constructor; auto; try constructor; intuition lia. Qed.
Lemma ex_load_ok : forall d s, NoDup (map fst (ex_load d s)) /\ forall k, In k (map fst (ex_load d s)) -> 0 <= k.
Proof. intros d s. unfold ex_load. destruct (s =? 0); cbn; split; try constructor; auto; try constructor; intuition lia. Qed.
Definition ex_e0 : Z -> elem := fun _ => mk_elem 7 (fun _ => 5) (fun _ => 5) (fun _ => 5) 5 5 (fun _ => 5) 5 true.
Lemma ex_order : Permutation [1; 0] (zseq 0 2).
Proof. change (zseq 0 2) with [0; 1]. apply perm_swap. Qed.
Lemma ex_npts : forall (e : triple) (f : form_visit), 1 <= 1.
Proof. intros; lia. Qed.

(** A nonlinear point residual X_i^2 with its Jacobian. *)
Lemma ex_is_jacobian X : is_jacobian 3 (fun X i => (X i * X i)%R) (along X) (fun k : Z => if (k / 3 =? k mod 3)%Z then (2 * X (k / 3)%Z)%R else 0%R).
Proof.
  intros w i Hi. apply (dpl_eq _ _ _ (2 * X i * w i)%R).
  - rewrite (rsum_single _ _ _ i); [|apply NoDup_zseq|apply in_zseq; lia|].
    + replace ((i * 3 + i) / 3) with i by lia. replace ((i * 3 + i) mod 3) with i by lia. rewrite Z.eqb_refl. lra.
    + intros j Hj Hne. apply in_zseq in Hj. replace ((i * 3 + j) / 3) with i by lia. replace ((i * 3 + j) mod 3) with j by lia.
      replace (i =? j) with false by lia. lra.
  - unfold along. apply (dpl_eq _ _ _ (w i * (X i + 0 * w i) + (X i + 0 * w i) * w i)%R); [lra|].
    apply (derivable_pt_lim_mult (fun s => X i + s * w i)%R (fun s => X i + s * w i)%R); apply dpl_affine.
Qed.
Example C82_example (U Y : Z -> R) :=
  C82_function Rord exact_g2 exact_g3 (2^31-1) 2 1 ex_raxes [(-1)%Z] ex_rLY 1 ex_e0 (fun _ _ => 5) ex_rsetup_ok ltac:(lia)
    ex_value ex_load (fun _ _ _ => 1%R) (fun _ _ => true) (fun _ _ => 1) (fun _ _ _ => 1%R) ex_value_ok ex_load_ok ex_npts None (fun _ _ => 5%R) [1; 0] ex_order
    (fun e f q X F i => (X i * X i)%R) (fun e f q X F k => if (k / 3 =? k mod 3)%Z then (2 * X (k / 3)%Z)%R else 0%R) U Y
    (fun e f q _ _ _ => ex_is_jacobian _).

(** ** C84: the Vector and Matrix forms take no account of boundary values *)
Section Refuted.
  Let G := fun r => grid_of 1 (ly_node (ex_rLY r)).
  Let N := fun d => if d <? 1 then ax_nnp (ex_raxes d) else 1.
  Let nel := fun d => if d <? 1 then ax_nel (ex_raxes d) else 1.
  Let nen := fun d => if d <? 1 then ax_p (ex_raxes d) + 1 else 1.
  Let first := fun e d => if d <? 1 then span_at (ex_raxes d) (coord e d) - ax_p (ex_raxes d) else 0.
  Let per := fun d => ax_periodic (ex_raxes d).
  Let elems := fun r => rank_elements (ex_e0 r) 1 (ly_elem_start (ex_rLY r)) (ly_elem_width (ex_rLY r)) (fun _ => 5).
  Let mapping := fun r e => closure (elem_off 1 ex_raxes e) (basis_nen 1 ex_raxes) (gr_gstart (G r)) (gr_gwidth (G r)).
  Let ix := fun (t : triple) (c : Z) => 1 * ao 2 G (lin N t) + c.
  Let visit : Z -> Z -> bool := fun _ _ => true.
  Let npts : triple -> form_visit -> Z := fun _ _ => 1.
  Let JW : triple -> form_visit -> Z -> R := fun _ _ _ => 1%R.
  Let vec := fun K ins => compute_vector 2 G 1 elems mapping K ins (fun _ _ => 5%R) [1; 0].
  Let mat := fun K ins => compute_matrix 2 G 1 elems mapping K ins (fun _ _ => 5%R) [1; 0].
  Let ex_K : cb0 := fun _ _ _ _ k => if (k / 3 =? k mod 3)%Z then 1%R else 0%R.
  Let ex_F : cb0 := fun _ _ _ _ _ => 0%R.
  Let area : triple -> Z -> Z -> R := fun _ _ _ => 1%R.

  Lemma ex_zero : in_box zero3 N (0, 0, 0).
  Proof. cbv. intuition discriminate. Qed.
  Lemma ex_four : in_box zero3 N (4, 0, 0).
  Proof. cbv. intuition discriminate. Qed.

Theorem C84_refuted : exists value Matrix Vector t c v,
  node_prescribed 1 per N value None t c = Some v /\
  (exists U, forall t c, in_box zero3 N t -> 0 <= c < 1 ->
     node_row N 1 (fun t c u d => mat (k_matrix 1 1 nen nel visit npts JW Matrix) [] (ix t c) (ix u d)) (fun t c => U (ix t c)) t c =
     vec (k_vector 1 1 nen nel visit npts JW Vector) [] (ix t c)) /\
  forall U, (forall t c, in_box zero3 N t -> 0 <= c < 1 ->
     node_row N 1 (fun t c u d => mat (k_matrix 1 1 nen nel visit npts JW Matrix) [] (ix t c) (ix u d)) (fun t c => U (ix t c)) t c =
     vec (k_vector 1 1 nen nel visit npts JW Vector) [] (ix t c)) -> U (ix t c) <> v.
Proof.
  pose proof (C81_vector Rord exact_g2 exact_g3 (2^31-1) 2 1 ex_raxes [(-1)%Z] ex_rLY 1 ex_e0 (fun _ _ => 5) ex_rsetup_ok ltac:(lia)
    ex_value ex_load area visit npts JW ex_value_ok ex_load_ok ex_npts None (fun _ _ => 5%R) [1; 0] ex_order ex_F []) as HF.
  pose proof (C81_matrix Rord exact_g2 exact_g3 (2^31-1) 2 1 ex_raxes [(-1)%Z] ex_rLY 1 ex_e0 (fun _ _ => 5) ex_rsetup_ok ltac:(lia)
    ex_value ex_load area visit npts JW ex_value_ok ex_load_ok ex_npts None (fun _ _ => 5%R) [1; 0] ex_order ex_K []) as HK.
  cbv zeta in HF, HK.
  assert (H3 : forall d, 0 <= d < 3 -> 1 <= nen d) by (intros d _; unfold nen; destruct (d <? 1); cbn; lia).
  assert (HN3 : forall d, 0 <= d < 3 -> 1 <= N d) by (intros d _; unfold N; destruct (d <? 1); cbn; lia).
  assert (HV : forall t c, in_box zero3 N t -> 0 <= c < 1 -> vec (k_vector 1 1 nen nel visit npts JW ex_F) [] (ix t c) = 0%R).
  { intros t c Ht Hc. etransitivity; [exact (HF t c Ht Hc)|]. unfold plain_vector, scatter.
    apply rsum_zero. intros e _. apply rsum_zero. intros a _. destruct (triple_eqb _ t); auto.
    unfold integral. apply rsum_zero. intros f _. apply rsum_zero. intros q _. unfold ex_F. lra. }
  assert (HR : forall U t c, in_box zero3 N t -> 0 <= c < 1 ->
    node_row N 1 (fun t c u d => mat (k_matrix 1 1 nen nel visit npts JW ex_K) [] (ix t c) (ix u d)) (fun t c => U (ix t c)) t c =
    (scatter N nen nel first (fun e a => integral 1 nel visit npts JW e (fun _ _ => 1%R)) t * U (ix t c))%R).
  { intros U t c Ht Hc.
    transitivity (node_row N 1 (plain_matrix 1 1 N nen nel first visit npts JW (fun e f q => ex_K e f q (fun _ => 0%R))) (fun t c => U (ix t c)) t c).
    - apply (node_row_ext 1 N nen nel first visit npts JW (fun _ _ => None) (fun _ _ _ => 0%R) H3 HN3). intros u d Hu Hd. f_equal. exact (HK t c u d Ht Hc Hu Hd).
    - rewrite (plain_row 1 1 N nen nel first visit npts JW (fun _ _ => None) (fun _ _ _ => 0%R) ltac:(lia) H3 HN3) by auto.
      unfold scatter. rewrite Rmult_comm, <- rsum_scal. apply rsum_ext. intros e He. rewrite <- rsum_scal. apply rsum_ext. intros a Ha.
      destruct (triple_eqb (elem_node N first e a) t) eqn:E; [|lra]. apply triple_eqb_eq in E. apply In_box in Ha.
      assert (La : 0 <= lin nen a * 1 + c < 3) by exact (index_lt 1 N nen nel first visit (fun _ _ => None) ltac:(lia) H3 HN3 a c Ha Hc).
      change (vol nen * 1) with 3. rewrite (rsum_single _ _ _ (lin nen a * 1 + c)); [|apply NoDup_zseq|apply in_zseq; lia|].
      + rewrite (earr_at 1 N nen nel first visit npts JW (fun _ _ => None) (fun _ _ _ => 0%R) ltac:(lia) H3 HN3) by auto. rewrite E.
        rewrite Rmult_comm. f_equal. unfold integral. apply rsum_ext. intros f _. apply rsum_ext. intros q _. unfold ex_K.
        set (i := lin nen a * 1 + c) in *. replace ((i * 3 + i) / 3) with i by lia. replace ((i * 3 + i) mod 3) with i by lia. rewrite Z.eqb_refl. reflexivity.
      + intros j Hj Hne. apply in_zseq in Hj. unfold integral. rewrite (rsum_zero _ _ (pieces _ _ _ _)); [lra|]. intros f _. apply rsum_zero. intros q _. unfold ex_K.
        set (i := lin nen a * 1 + c) in *. replace ((i * 3 + j) / 3) with i by lia. replace ((i * 3 + j) mod 3) with j by lia.
        replace (i =? j) with false by lia. lra. }
  exists ex_value, ex_K, ex_F, (0, 0, 0), 0, 1%R. split; [reflexivity|]. split.
  - exists (fun _ => 0%R). intros t c Ht Hc. rewrite (HR (fun _ => 0%R)), HV by auto. lra.
  - intros U H. specialize (H (0,0,0) 0 ex_zero ltac:(lia)). rewrite HR, HV in H by (auto using ex_zero; lia).
    assert (P : scatter N nen nel first (fun e a => integral 1 nel visit npts JW e (fun _ _ => 1%R)) (0,0,0) = 2%R).
    { cbv -[Rplus Rminus Rmult Rdiv Rinv Ropp IZR R]. lra. }
    rewrite P in H. lra.
Qed.

(** ** C85 refuted: with a load the two formulations are different equations *)
Theorem C85_refuted : exists value load Mass RHSFunction IFunction V U t c,
  (forall e f q Xv Xu i, IFunction e f q 0%R Xv 0%R Xu (fun _ => 0%R) i = (Mass e f q Xv i - RHSFunction e f q 0%R Xu (fun _ => 0%R) i)%R) /\
  node_prescribed 1 per N value None t c = None /\
  vec (k_ifunction 1 1 nen nel per visit value load area false npts JW IFunction 0%R 0%R) [V; U] (ix t c) <>
  (plain_vector 1 1 N nen nel first visit npts JW
     (fun e f q => Mass e f q (earr 1 N nen first e (released (node_prescribed 1 per N value None) (fun t c => V (ix t c))))) t c -
   vec (k_rhsfunction 1 1 nen nel per visit value load area false npts JW RHSFunction 0%R) [U] (ix t c))%R.
Proof.
  exists ex_value, ex_load, (fun _ _ _ X i => X i), (fun _ _ _ _ X _ i => X i), (fun _ _ _ _ Xv _ Xu _ i => (Xv i - Xu i)%R), (fun _ => 0%R), (fun _ => 0%R), (4,0,0), 0.
  split; [intros; reflexivity|]. split; [reflexivity|].
  pose proof (C85_rhs_against_ifunction Rord exact_g2 exact_g3 (2^31-1) 2 1 ex_raxes [(-1)%Z] ex_rLY 1 ex_e0 (fun _ _ => 5) ex_rsetup_ok ltac:(lia)
    ex_value ex_load area visit npts JW ex_value_ok ex_load_ok ex_npts None (fun _ _ => 5%R) [1; 0] ex_order
    (fun _ _ _ X i => X i) (fun _ _ _ _ X _ i => X i) (fun _ _ _ _ Xv _ Xu _ i => (Xv i - Xu i)%R) 0%R 0%R (fun _ => 0%R) (fun _ => 0%R) (4,0,0) 0 ex_four ltac:(lia)
    ltac:(intros e f q _ _ _ Xv Xu i _; reflexivity)) as K.
  cbv zeta in K. intros E.
  assert (P : plain_load N nen nel first (fun e a c => match loaded 1 per nel (coord e) nen ex_load (area e) a c with Some w => w | None => 0%R end) (4,0,0) 0 = 1%R).
  { cbv -[Rplus Rminus Rmult Rdiv Rinv Ropp IZR R]. lra. }
  match type of K with _ = match ?p with _ => _ end => change p with (@None R) in K end. cbv iota in K.
  match type of K with (?a + ?b = ?c - 2 * ?d)%R =>
    assert (K1 : (a + b = c - 2 * 1)%R) by (rewrite K; f_equal; f_equal; exact P) end.
  match type of E with (?a = ?b - ?c)%R => assert (K2 : (a + c = b - 2 * 1)%R) by exact K1; lra end.
Qed.

(** Non-trivial cases of the other theorems. *)
Example C81_example : forall U : Z -> R,
  vec (k_function 1 1 nen nel per visit ex_value ex_load area false npts JW (fun e f q X F i => (X i * X i)%R)) [U] (ix (0,0,0) 0) = (U (ix (0,0,0) 0)%Z - 1)%R.
Proof.
  intros U. etransitivity; [exact (C81_function Rord exact_g2 exact_g3 (2^31-1) 2 1 ex_raxes [(-1)%Z] ex_rLY 1 ex_e0 (fun _ _ => 5) ex_rsetup_ok ltac:(lia)
    ex_value ex_load area visit npts JW ex_value_ok ex_load_ok ex_npts None (fun _ _ => 5%R) [1; 0] ex_order
    (fun e f q X F i => (X i * X i)%R) U (0,0,0) 0 ex_zero ltac:(lia))|].
  unfold residual. match goal with |- match ?p with _ => _ end = _ => change p with (Some 1%R) end. cbv iota.
  match goal with |- (?m * _ = _)%R => assert (P : m = 1%R) by (cbv -[Rplus Rminus Rmult Rdiv Rinv Ropp IZR R]; lra); rewrite P end.
  rewrite Rmult_1_l. reflexivity.
Qed.
Example C83_example : forall (f : form_visit) (X : Z -> R) i, 0 <= i < 3 ->
  (X i - 7)%R = (rsum (fun j => ex_K (0,0,0)%Z f 0%Z (fun _ => 0%R) (i * 3 + j)%Z * X j) (zseq 0 3) - 7)%R.
Proof.
  intros f X i Hi. rewrite (rsum_single _ _ _ i); [|apply NoDup_zseq|apply in_zseq; lia|].
  - unfold ex_K. replace ((i * 3 + i) / 3) with i by lia. replace ((i * 3 + i) mod 3) with i by lia. rewrite Z.eqb_refl. lra.
  - intros j Hj Hne. apply in_zseq in Hj. unfold ex_K. replace ((i * 3 + j) / 3) with i by lia. replace ((i * 3 + j) mod 3) with j by lia.
    replace (i =? j) with false by lia. lra.
Qed.
Example C85_example : node_prescribed 1 per N ex_value None (2,0,0) 0 = None /\
  plain_load N nen nel first (fun e a c => match loaded 1 per nel (coord e) nen ex_load (area e) a c with Some w => w | None => 0%R end) (2,0,0) 0 = 0%R.
Proof. split; [reflexivity|]. cbv -[Rplus Rminus Rmult Rdiv Rinv Ropp IZR R]. lra. Qed.
End Refuted.

Print Assumptions C81_loops.
Print Assumptions C81_vector.
Print Assumptions C81_matrix.
Print Assumptions C81_system_matrix.
Print Assumptions C81_system_vector.
Print Assumptions C81_function.
Print Assumptions C81_jacobian.
Print Assumptions C81_ifunction.
Print Assumptions C81_ijacobian.
Print Assumptions C81_iefunction.
Print Assumptions C81_iejacobian.
Print Assumptions C81_rhsfunction.
Print Assumptions C81_rhsjacobian.
Print Assumptions C81_i2function.
Print Assumptions C81_i2jacobian.
Print Assumptions C82_function.
Print Assumptions C82_ifunction.
Print Assumptions C82_iefunction.
Print Assumptions C82_rhsfunction.
Print Assumptions C82_i2function.
Print Assumptions C83_same_equations.
Print Assumptions C83_same_matrix.
Print Assumptions C84_refuted.
Print Assumptions C85_rhs_against_ifunction.
Print Assumptions C85_free_nodes_partial.
Print Assumptions C85_refuted.
