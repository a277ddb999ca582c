(** C111, C112: the memory of a form. *)
From Coq Require Import ZArith List Bool Lia.
From Verif Require Import Prelude BCModel BCSpec BCProofs FrmModel FrmSpec FrmProofs.
Import ListNotations.
Open Scope Z_scope.

(** * C111 *)
(** No history of calls leaves the memory of a form; every call is accepted exactly when it is legal; the tables hold
    what was last written and the flags what was last set. *)
Theorem C111_tables : forall (V : Type) (zero : V) (calls : list (call V)), exists m,
  frun zero calls = Some m /\ m_alive m = true /\
  (forall dim dof op, legal dim dof op -> exists m', fstep dim dof op m = ROk m') /\
  (forall dim dof op, ~ legal dim dof op -> fstep dim dof op m = RErr m) /\
  forall a s, face a s ->
    (forall c v, In (c, v) (entries m (m_value m a s)) <-> last_written writes_value a s c v calls) /\
    (forall c v, In (c, v) (entries m (m_load m a s)) <-> last_written writes_load a s c v calls) /\
    (m_visit m a s = true <-> last_written writes_form a s 0 true calls) /\
    NoDup (map fst (entries m (m_value m a s))) /\ NoDup (map fst (entries m (m_load m a s))).
Proof.
  intros V zero calls. destruct (frun_inv V zero calls) as [m [E H]]. exists m. split; [exact E|].
  split; [apply H|]. split; [|split].
  - intros dim dof op L. destruct (fstep_ok V calls dim dof op m H L) as [m' [E' _]]. eauto.
  - intros dim dof op L. apply (fstep_bad V); auto. apply H.
  - intros a s F. rewrite (holds_entries V _ _ _ (i_v _ _ _ H a s F)), (holds_entries V _ _ _ (i_l _ _ _ H a s F)).
    destruct (run_tables V calls a s) as ((A1 & A2) & (B1 & B2)).
    split; [intros c v; rewrite <- lookup_In by exact A1; apply run_lookup|].
    split; [intros c v; rewrite <- lookup_In by exact B1; apply run_lookup|].
    split; [rewrite (i_vis _ _ _ H); apply run_visit|]. split; [exact A1|exact B1].
Qed.
Print Assumptions C111_tables.

(** IGAFormDestroy then frees every table, each once. *)
Theorem C111_destroy : forall (V : Type) (zero : V) (calls : list (call V)) m,
  frun zero calls = Some m ->
  exists m', IGAFormDestroy m = ROk m' /\ m_alive m' = false /\ forall z, m_blk m' z = None.
Proof.
  intros V zero calls m E. destruct (frun_inv V zero calls) as [m0 [E0 H]]. rewrite E in E0. injection E0 as <-.
  exact (destroy_inv V m _ H).
Qed.
Print Assumptions C111_destroy.

(** A new form is blank, and IGAFormClearBoundary on all faces makes any form blank. *)
Definition clear_all {V} : list (call V) := map (fun p => (0, 0, Clear (fst p) (snd p))) faces6.
Theorem C111_blank : forall (V : Type) (zero : V) (calls : list (call V)),
  blank_form (IGAFormCreate zero) /\ exists m, frun zero (calls ++ clear_all) = Some m /\ blank_form m.
Proof.
  assert (B : forall V (m : fmem V) f, Inv V m f -> (forall a s, face a s -> fm_value f a s = [] /\ fm_load f a s = [] /\ fm_visit f a s = false) -> blank_form m).
  { intros V m f H K. split; [apply H|]. intros a s F. destruct (K a s F) as [K1 [K2 K3]].
    assert (Z0 : forall b : bcb V, 0 <= b_count b -> tab V b 0 (b_count b) = [] -> b_count b = 0).
    { intros b C T. assert (L : length (tab V b 0 (b_count b)) = 0%nat) by now rewrite T. rewrite tab_length in L. lia. }
    split; [|split; [|rewrite (i_vis _ _ _ H); exact K3]].
    - destruct (i_v _ _ _ H a s F) as [b [D [C T]]]. exists b. rewrite K1 in T. auto.
    - destruct (i_l _ _ _ H a s F) as [b [D [C T]]]. exists b. rewrite K2 in T. auto. }
  intros V zero calls. split.
  - apply (B V _ _ (create_inv V zero)). auto.
  - destruct (frun_inv V zero (calls ++ clear_all)) as [m [E H]]. exists m. split; [exact E|]. apply (B V m _ H).
    intros a s F. unfold bc_run. rewrite fold_left_app.
    match goal with |- context [fold_left _ calls new_form] => generalize (fold_left (fun (f : form V) (c : call V) =>
      let '(dim, dof, op) := c in snd (bc_step dim dof op f)) calls new_form) end.
    intros f. apply face_cases in F.
    repeat destruct F as [[= <- <-]|F]; [| | | | | |destruct F]; (split; [|split]); reflexivity.
Qed.
Print Assumptions C111_blank.

(** 66 calls on one face, more than the 64 places; the last of them change what is there. *)
Definition many : list (call Z) := map (fun c => (0, 0, SetValue 1 0 (c mod 64) (100 + c))) (zseq 0 66) ++ [(0, 0, SetLoad 1 0 3 7); (0, 0, SetValue 1 0 64 5)].
Example C111_example : exists m, frun 0 many = Some m /\ length (entries m (m_value m 1 0)) = 64%nat /\
  In (0, 164) (entries m (m_value m 1 0)) /\ In (2, 102) (entries m (m_value m 1 0)) /\ entries m (m_load m 1 0) = [(3, 7)] /\
  entries m (m_value m 1 1) = [].
Proof.
  destruct (frun_inv Z 0 many) as [m [E H]]. exists m. split; [exact E|].
  assert (F : face 1 0) by (unfold face; lia). assert (F1 : face 1 1) by (unfold face; lia).
  rewrite (holds_entries Z _ _ _ (i_v _ _ _ H 1 0 F)), (holds_entries Z _ _ _ (i_l _ _ _ H 1 0 F)),
    (holds_entries Z _ _ _ (i_v _ _ _ H 1 1 F1)).
  vm_compute. repeat split; auto.
Qed.

(** * C112 *)
(** IGAFormReset leaves the struct on every platform... *)
Theorem C112_reset_refuted : exists (calls : list (call Z)) m,
  frun 0 calls = Some m /\ IGAFormReset x86_64 0 m = RFault /\ sizeof_form x86_64 = 144 /\ 3 * 2 * sizeof_bc x86_64 = 4656.
Proof. exists []. eexists. split; [reflexivity|]. repeat split; reflexivity. Qed.
Print Assumptions C112_reset_refuted.

Theorem C112_reset_overruns : forall (V : Type) p (m : fmem V), sane p -> IGAFormReset p 0 m = RFault.
Proof.
  intros V p m S. pose proof (overrun p S) as O. unfold IGAFormReset. destruct (m_alive m); [|reflexivity]. cbn [negb].
  destruct (Z.leb_spec (off_value p + 3 * 2 * sizeof_bc p) (sizeof_form p + 0)); [lia|reflexivity].
Qed.
Print Assumptions C112_reset_overruns.

(** ... and even where that goes unnoticed the form cannot be used again: setting or clearing a condition follows a NULL
    pointer, and the twelve tables are never freed. *)
Theorem C112_after_reset : forall (V : Type) (zero : V) (calls : list (call V)) m p room m',
  frun zero calls = Some m -> IGAFormReset p room m = ROk m' ->
  (forall dim dof op, legal dim dof op -> (forall a s b, op <> SetForm a s b) -> fstep dim dof op m' = RFault) /\
  exists m'', IGAFormDestroy m' = ROk m'' /\ forall z, 0 <= z < 12 -> m_blk m'' z <> None.
Proof.
  intros V zero calls m p room m' E R. destruct (frun_inv V zero calls) as [m0 [E0 H]]. rewrite E in E0. injection E0 as <-.
  unfold IGAFormReset in R. rewrite (i_alive _ _ _ H) in R. cbn [negb] in R.
  destruct ((_ <=? _) && (_ <=? _)) in R; [|discriminate]. injection R as <-. split.
  - intros dim dof op L N. rewrite (fstep_good V); auto. destruct op as [a s c v|a s c v|a s b|a s]; try reflexivity.
    exfalso. exact (N a s b eq_refl).
  - eexists. split; [reflexivity|]. cbn. intros z Hz. apply (i_blk _ _ _ H). exact Hz.
Qed.
Print Assumptions C112_after_reset.

(** The situation of the last theorem exists: 5000 bytes behind the struct. *)
Example C112_example :
  match IGAFormReset x86_64 5000 (IGAFormCreate 0) with ROk m' => m_dof m' =? -1 | _ => false end = true /\ sane x86_64.
Proof. split; [vm_compute; reflexivity|]. unfold sane, x86_64; cbn; lia. Qed.
