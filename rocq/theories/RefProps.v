(** C109, C110: object lifetime. *)
From Coq Require Import ZArith List Bool Lia FunctionalExtensionality.
Import ListNotations.
From Verif Require Import RefModel RefSpec RefProofs RefProofs2 RefProofs3 RefProofs4.
Local Open Scope Z_scope.

Definition any : cmd -> Prop := fun _ => True.

(** No call a program may make touches a freed object (evaluating a probe is the subject of C110). *)
Theorem C109_no_fault : forall h own c,
  run any h own -> legal own h c -> ~ sets_point c -> api c h <> Fault.
Proof. intros h own c. apply no_fault. Qed.
Print Assumptions C109_no_fault.

(** After any sequence of calls: exactly the objects the program can still reach are alive.  Nothing it can use was
    freed, and nothing it cannot use any more is left. *)
Theorem C109_alive_iff_reachable : forall h own x,
  run any h own -> (o_freed (h_obj h x) = false <-> reach own h x).
Proof.
  intros h own x Hr. pose proof (run_J _ h own Hr) as H. split.
  - exact (live_reach own h H x).
  - exact (reach_live own h x H).
Qed.
Print Assumptions C109_alive_iff_reachable.

(** A program that gives back all its references leaves nothing behind, in whatever order it does so. *)
Theorem C109_nothing_left : forall h own,
  run any h own -> (forall x, own x = 0) -> forall x, o_freed (h_obj h x) = true.
Proof.
  intros h own Hr Z0 x. destruct (o_freed (h_obj h x)) eqn:F; auto. exfalso.
  assert (Rx : reach own h x) by (apply (proj1 (C109_alive_iff_reachable h own x Hr)); exact F).
  clear F. induction Rx as [x Ox|x y Rx IH I]; auto. rewrite Z0 in Ox. lia.
Qed.
Print Assumptions C109_nothing_left.

(** What the program holds never turns into something else. *)
Theorem C109_handles_valid : forall h own x,
  run any h own -> 0 < own x -> o_freed (h_obj h x) = false /\ 1 <= o_ref (h_obj h x).
Proof.
  intros h own x Hr Ox. pose proof (run_J _ h own Hr) as H.
  assert (L : live h x) by (apply (live_u h own); auto; lia). split; [exact L|]. apply (J_live h own H x L).
Qed.
Print Assumptions C109_handles_valid.

(** IGASetForm: the IGA then holds the form given. *)
Lemma IGASetForm_sets h u i f : J h u -> live h i -> o_kind (h_obj h i) = KIga -> live h f -> o_kind (h_obj h f) = KForm ->
  ok (IGASetForm i f) h (fun _ h' => nth s_form (o_slots (h_obj h' i)) None = Some f).
Proof.
  intros H Li Ki Lf Kf. unfold IGASetForm. apply ok_bind. apply ok_get; auto.
  destruct (match nth s_form (slots h i) None with Some g => f =? g | None => false end) eqn:E.
  { apply ok_ret. destruct (nth s_form (slots h i) None) as [g|] eqn:Eg; [|discriminate].
    apply Z.eqb_eq in E. subst g. exact Eg. }
  eapply ok_mono; [apply (swap_ok h u i s_form f H Li Lf)|].
  - rewrite Ki. unfold s_form. cbn. lia.
  - unfold rk. rewrite Ki, Kf. cbn. lia.
  - intros [] h2 [_ [_ [[_ [_ [S _]]] _]]]. rewrite S. rewrite nth_list_set; [now rewrite Nat.eqb_refl|].
    rewrite (len_slots h u i H Li), Ki. unfold s_form. cbn. lia.
Qed.

Theorem C109_set_form : forall h own i f r h',
  run any h own -> legal own h (CIgaSetForm i f) -> api (CIgaSetForm i f) h = Done r h' ->
  nth s_form (o_slots (h_obj h' i)) None = Some f.
Proof.
  intros h own i f r h' Hr [L1 L2] E. pose proof (run_J _ h own Hr) as H.
  destruct (arg_alive own h KIga i H L1) as [Li Ki]. destruct (arg_alive own h KForm f H L2) as [Lf Kf].
  pose proof (IGASetForm_sets h own i f H Li Ki Lf Kf) as K. unfold ok in K.
  cbn [api] in E. unfold quiet, bind at 1 in E.
  destruct (IGASetForm i f h) as [[] h2|h2|]; [|discriminate E|discriminate E].
  unfold ret in E. injection E as <- <-. exact K.
Qed.
Print Assumptions C109_set_form.

(** DMIGASetIGA on a DM that has another IGA is an error and changes nothing. *)
Theorem C109_set_iga_twice : forall h own d i j,
  run any h own -> legal own h (CDmSetIGA d i) -> nth 0 (o_slots (h_obj h d)) None = Some j -> j <> i ->
  api (CDmSetIGA d i) h = Failed h.
Proof.
  intros h own d i j Hr [L1 L2] E N. pose proof (run_J _ h own Hr) as H.
  destruct (arg_alive own h KDm d H L1) as [Ld Kd]. unfold live in Ld.
  cbn [api]. unfold quiet, DMIGASetIGA, bind, get_slot. rewrite Ld, E.
  destruct (Z.eqb_spec j i); [contradiction|]. reflexivity.
Qed.
Print Assumptions C109_set_iga_twice.

(** Otherwise the DM has the IGA afterwards. *)
Theorem C109_set_iga : forall h own d i r h',
  run any h own -> legal own h (CDmSetIGA d i) -> api (CDmSetIGA d i) h = Done r h' ->
  nth 0 (o_slots (h_obj h' d)) None = Some i.
Proof.
  intros h own d i r h' Hr [L1 L2] E. pose proof (run_J _ h own Hr) as H.
  destruct (arg_alive own h KDm d H L1) as [Ld Kd]. destruct (arg_alive own h KIga i H L2) as [Li Ki].
  pose proof (DMIGASetIGA_ok h own d i H Ld Kd Li Ki) as K. unfold ok in K.
  cbn [api] in E. unfold quiet, bind at 1 in E.
  destruct (DMIGASetIGA d i h) as [[] h2|h2|] eqn:Ed; [|discriminate E|discriminate E].
  unfold ret in E. injection E as <- <-. destruct K as [J2 G2].
  assert (Kd2 : o_kind (h_obj h2 d) = KDm) by (rewrite (g_kind _ _ G2); auto; apply (J_range h own H d Ld)).
  unfold DMIGASetIGA, bind at 1, get_slot in Ed. unfold live in Ld. rewrite Ld in Ed.
  destruct (match nth 0 (o_slots (h_obj h d)) None with Some j => negb (j =? i) | None => false end); [discriminate Ed|].
  unfold bind at 1 in Ed. destruct (reference i h) as [[] h3|h3|]; try discriminate Ed.
  unfold bind at 1 in Ed. destruct (XDestroy (nth 0 (o_slots (h_obj h d)) None) h3) as [[] h4|h4|]; try discriminate Ed.
  unfold set_slot in Ed. destruct (o_freed (h_obj h4 d)); [discriminate Ed|].
  injection Ed as <-. assert (Ld5 : live (put d (mk_obj (o_kind (h_obj h4 d)) (o_ref (h_obj h4 d)) false
    (list_set (o_slots (h_obj h4 d)) 0 (Some i)) (o_weak (h_obj h4 d))) h4) d) by (unfold live; now rewrite put_same).
  pose proof (len_slots _ _ _ J2 Ld5) as Len. rewrite Kd2 in Len. unfold slots in Len. rewrite put_same in *.
  cbn [o_slots] in *. destruct (o_slots (h_obj h4 d)); [discriminate Len|reflexivity].
Qed.
Print Assumptions C109_set_iga.

(** IGAProbeSetVec: the probe then holds the vector given. *)
Theorem C109_probe_set_vec : forall h own p v r h',
  run any h own -> legal own h (CProbeSetVec p v) -> api (CProbeSetVec p v) h = Done r h' ->
  nth 0 (o_slots (h_obj h' p)) None = Some v.
Proof.
  intros h own p v r h' Hr [L1 L2] E. pose proof (run_J _ h own Hr) as H.
  destruct (arg_alive own h KProbe p H L1) as [Lp Kp]. destruct (arg_alive own h KVec v H L2) as [Lv Kv].
  assert (Hn : (0 < arity (o_kind (h_obj h p)))%nat) by (rewrite Kp; cbn; lia).
  assert (Hk : rk h v < rk h p) by (unfold rk; rewrite Kp, Kv; cbn; lia).
  pose proof (swap_ok h own p 0 v H Lp Lv Hn Hk) as K. unfold ok in K.
  cbn [api] in E. unfold quiet, bind at 1 in E. unfold IGAProbeSetVec in E.
  match type of E with match ?m with _ => _ end = _ => destruct m as [[] h2|h2|] end; [|discriminate E|discriminate E].
  unfold ret in E. injection E as <- <-. destruct K as [_ [_ [[_ [_ [S _]]] _]]]. rewrite S.
  rewrite nth_list_set; [reflexivity|]. now rewrite (len_slots h own p H Lp).
Qed.
Print Assumptions C109_probe_set_vec.

(** What is made from an IGA keeps it alive. *)
Theorem C109_made_keep_iga : forall h own c i x h',
  run any h own -> legal own h c -> made_from c = Some i -> api c h = Done (Some x) h' ->
  In (Some i) (o_slots (h_obj h' x)).
Proof.
  intros h own c i x h' Hr L F E. pose proof (run_J _ h own Hr) as H.
  assert (A : arg own h KIga i) by (destruct c; try discriminate F; injection F as <-; cbn [legal] in L; auto; apply L).
  destruct (arg_alive own h KIga i H A) as [Li Ki].
  assert (R3 : rk h i < 3) by (unfold rk; rewrite Ki; cbn; lia). assert (R4 : rk h i < 4) by lia.
  assert (T : forall (m : M Z) (Q : Z -> heap -> Prop), ok m h Q -> fresh m h = Done (Some x) h' -> Q x h').
  { intros m Q Hm Em. unfold ok in Hm. unfold fresh, bind in Em. destruct (m h) as [y h2|h2|]; try discriminate Em.
    unfold ret in Em. injection Em as <- <-. exact Hm. }
  assert (N : forall n, nth n (slots h' x) None = Some i -> In (Some i) (o_slots (h_obj h' x)))
    by (intros n; apply nth_In_some).
  destruct c; try discriminate F; injection F as ->; cbn [api] in E.
  - destruct (T _ _ (IGACreateVec_ok h own H i Li R4) E) as [_ [_ [_ [_ [_ [_ [S _]]]]]]]. rewrite S. cbn; auto.
  - destruct (T _ _ (IGACreateKSP_ok h own H i Li R4) E) as [sl [_ [_ [_ [_ [_ [_ [S _]]]]]]]]. rewrite S. cbn; auto.
  - destruct (T _ _ (IGACreateSNES_ok h own H i Li R4) E) as [sl [_ [_ [_ [_ [_ [_ [S _]]]]]]]]. rewrite S. cbn; auto.
  - destruct (T _ _ (IGACreateTS_ok h own H i Li R4) E) as [sl [_ [_ [_ [_ [_ [_ [S _]]]]]]]]. rewrite S. cbn; auto.
  - destruct (T _ _ (IGACreateTS2_ok h own H i Li R4) E) as [sl [_ [_ [_ [_ [_ [_ [S _]]]]]]]]. rewrite S. cbn; auto.
  - destruct (T _ _ (KSPSetIGA_ok h own H i Li R3) E) as [sl [_ [_ [_ [_ [_ [_ [S _]]]]]]]]. rewrite S. cbn; auto.
  - destruct (T _ _ (TSSetIGA_ok h own i H Li R3) E) as [_ S]. exact (N _ S).
  - destruct (T _ _ (DMIGACreate_ok h own H i Li R3) E) as [_ [_ [_ [_ [_ [_ [S _]]]]]]]. rewrite S. cbn; auto.
  - assert (Hv : match v with Some v => live h v /\ o_kind (h_obj h v) = KVec | None => True end).
    { destruct v as [v|]; auto. apply (arg_alive own h KVec v H). apply L. }
    destruct (T _ _ (IGAProbeCreate_ok h own i v H Li Ki Hv) E) as [_ [_ S]]. exact (N _ S).
Qed.
Print Assumptions C109_made_keep_iga.

(** The clone of an IGA owns new objects only: it shares none with the original. *)
Theorem C109_clone_shares_nothing : forall h own i j h' y,
  run any h own -> legal own h (CIgaClone i) -> api (CIgaClone i) h = Done (Some j) h' ->
  In (Some y) (o_slots (h_obj h' j)) -> o_freed (h_obj h y) = true /\ ~ In (Some y) (o_slots (h_obj h' i)).
Proof.
  intros h own i j h' y Hr L E I. pose proof (run_J _ h own Hr) as H.
  destruct (arg_alive own h KIga i H L) as [Li Ki]. pose proof (J_range h own H i Li) as Ri.
  pose proof (IGAClone_ok h own H i Li) as K. cbn [api] in E. unfold fresh, bind in E. unfold ok in K.
  destruct (IGAClone i h) as [x h2|h2|]; [|discriminate E|discriminate E].
  unfold ret in E. injection E as <- <-. destruct K as [sl [M1 AN]]. pose proof M1 as [J1 [C1 [E1 [N1 [_ [_ [Sl _]]]]]]].
  rewrite Sl in I. unfold AllNew in AN. rewrite Forall_forall in AN. specialize (AN _ I). cbn in AN. split.
  - destruct (live_dec h y) as [Ly|D]; auto. apply (J_range h own H) in Ly. lia.
  - intros Iy. destruct (c_same _ _ _ C1 i ltac:(lia) (fun f => f)) as [_ [_ [Si _]]]. rewrite Si in Iy.
    pose proof (live_slot h own i y H Li Iy) as Ly. apply (J_range h own H) in Ly. lia.
Qed.
Print Assumptions C109_clone_shares_nothing.

(** * C110: probes *)
(** As long as no IGA is reset or given another geometry dimension, a probe held can be moved to a point: all the arrays
    it points to are there, also when the program has given back the IGA and the vector. *)
Theorem C110_probe_usable : forall (P : cmd -> Prop) h own p,
  (forall c, P c -> ~ frees_arrays c) -> run P h own -> legal own h (CProbeSetPoint p) ->
  api (CProbeSetPoint p) h = Done None h.
Proof. exact point_no_fault. Qed.
Print Assumptions C110_probe_usable.

(** * Concrete runs *)
Definition state := (heap * owner)%type.
Definition start : state := (heap0, fun _ => 0).
Definition step (s : state) (c : cmd) : state :=
  match api c (fst s) with Done r h => (h, own_after (snd s) c r) | _ => s end.
Definition after (l : list cmd) : state := fold_left step l start.
Definition done {A} (o : outcome A) : bool := match o with Done _ _ => true | _ => false end.

(** Every call of a program is legal and succeeds. *)
Fixpoint goes (P : cmd -> Prop) (s : state) (l : list cmd) : Prop :=
  match l with
  | [] => True
  | c :: t => P c /\ legal (snd s) (fst s) c /\ done (api c (fst s)) = true /\ goes P (step s c) t
  end.
Lemma goes_run P l : forall s, run P (fst s) (snd s) -> goes P s l ->
  run P (fst (fold_left step l s)) (snd (fold_left step l s)).
Proof.
  induction l as [|c t IH]; intros s R G; cbn [fold_left]; auto. destruct G as [Pc [L [D G]]].
  apply IH; auto. unfold step. destruct (api c (fst s)) as [r h|h|] eqn:E; try discriminate.
  cbn [fst snd]. now apply (run_call P (fst s) (snd s) c r h).
Qed.
Lemma after_run P l : goes P start l -> run P (fst (after l)) (snd (after l)).
Proof. intros G. apply goes_run; auto. apply run_start. Qed.

Lemma reach_held u h x : (0 <? u x) = true -> reach u h x.
Proof. intros E. apply reach_own. now apply Z.ltb_lt. Qed.
Lemma reach_part u h x y : (0 <? u x) = true -> existsb (fun v => match v with Some z => z =? y | None => false end)
  (o_slots (h_obj h x)) = true -> reach u h y.
Proof.
  intros E I. apply (reach_slot u h x); [now apply reach_held|]. apply existsb_exists in I.
  destruct I as [[z|] [I Ez]]; [|discriminate]. apply Z.eqb_eq in Ez. now subst z.
Qed.
Lemma held_destroy (u : owner) (x : Z) : (0 <? u x) = true -> 0 < u x.
Proof. apply Z.ltb_lt. Qed.
Ltac legals := repeat match goal with
  | |- _ /\ _ => split
  | |- True => exact I
  | |- any _ => exact I
  | |- ~ _ => exact (fun f => f)
  | |- reach _ _ _ => solve [apply reach_held; vm_compute; reflexivity | apply (reach_part _ _ 0); vm_compute; reflexivity]
  | |- _ = _ => vm_compute; reflexivity
  | |- 0 < _ => apply held_destroy; vm_compute; reflexivity
  end.

(** An IGA (0) with a geometry (arrays 13 and 14), a probe (15) on it, IGASetGeometryDim: the probe points to freed
    arrays. *)
Definition prog_stale (c : cmd) : list cmd := [CIgaCreate; CIgaLoadGeometry 0; CProbeCreate 0 None; c].

Theorem C110_after_geometry_dim_refuted : exists h own p,
  run any h own /\ legal own h (CProbeSetPoint p) /\ api (CProbeSetPoint p) h = Fault.
Proof.
  pose (s := after (prog_stale (CIgaSetGeometryDim 0))). exists (fst s), (snd s), 15. split; [|split].
  - apply after_run. unfold goes, prog_stale, legal, arg. legals.
  - unfold legal, arg. legals.
  - vm_compute. reflexivity.
Qed.
Print Assumptions C110_after_geometry_dim_refuted.

(** IGAReset takes the arrays away from a probe that could be used before. *)
Lemma then_faults {A B} (o : outcome A) (f : heap -> outcome B) :
  match o with Done _ h => match f h with Fault => true | _ => false end | _ => false end = true ->
  exists r h', o = Done r h' /\ f h' = Fault.
Proof.
  destruct o as [a h|h|]; try discriminate. intros E. exists a, h. split; auto. destruct (f h); try discriminate. reflexivity.
Qed.

Theorem C110_after_reset_refuted : exists h own i p,
  run any h own /\ legal own h (CIgaReset i) /\ legal own h (CProbeSetPoint p) /\
  api (CProbeSetPoint p) h = Done None h /\
  (exists r h', api (CIgaReset i) h = Done r h' /\ api (CProbeSetPoint p) h' = Fault).
Proof.
  pose (s := after [CIgaCreate; CIgaLoadGeometry 0; CProbeCreate 0 None]). exists (fst s), (snd s), 0, 15.
  split; [apply after_run; unfold goes, legal, arg; legals|].
  assert (L : legal (snd s) (fst s) (CProbeSetPoint 15)) by (unfold legal, arg; legals).
  split; [unfold legal, arg; legals|]. split; [exact L|]. split.
  - apply (C110_probe_usable (fun c => ~ frees_arrays c) _ (snd s)); auto.
    apply after_run; unfold goes, legal, arg; legals.
  - apply then_faults. vm_compute. reflexivity.
Qed.
Print Assumptions C110_after_reset_refuted.

(** A program that makes an IGA, a vector (15) and a probe (16), gives back the IGA and the vector and moves the probe: the
    IGA, its arrays and the vector are still there because the probe holds them. *)
Definition prog_probe : list cmd :=
  [CIgaCreate; CIgaLoadGeometry 0; CIgaCreateVec 0; CProbeCreate 0 (Some 15); CDestroy 0; CDestroy 15].
Example C110_example : let s := after prog_probe in
  run (fun c => ~ frees_arrays c) (fst s) (snd s) /\ legal (snd s) (fst s) (CProbeSetPoint 16) /\
  map (snd s) [0; 15; 16] = [0; 0; 1] /\ o_weak (h_obj (fst s) 16) = [14; 13] /\
  map (fun x => o_freed (h_obj (fst s) x)) [0; 13; 14; 15; 16] = [false; false; false; false; false] /\
  forallb (fun x => o_freed (h_obj (fst (step s (CDestroy 16))) (Z.of_nat x))) (seq 0 20) = true.
Proof.
  intros s. split; [apply after_run; unfold goes, prog_probe, legal, arg; legals|]. unfold legal, arg. legals.
Qed.

(** Two IGAs (0, 13) with one form (10, of the first), a time stepper (26) with its vectors, a DM (31), its clone (32), a
    vector of the DM (46), another time stepper (47); then the IGAs are given back in the order of creation, then all the
    rest. *)
Definition prog_long : list cmd :=
  [CIgaCreate; CIgaCreate; CIgaSetForm 13 10; CIgaCreateTS2 0; CDmIgaCreate 13; CDmClone 31; CDmCreateVec 31; CTsSetIGA 13;
   CDestroy 0; CDestroy 13].
Definition prog_rest : list cmd := [CDestroy 26; CDestroy 31; CDestroy 32; CDestroy 46; CDestroy 47].
Example C109_example : let s := after prog_long in let e := after (prog_long ++ prog_rest) in
  run any (fst s) (snd s) /\ run any (fst e) (snd e) /\
  map (fun x => o_kind (h_obj (fst s) x)) [0; 10; 13; 23; 26; 31; 32; 33; 46; 47]
  = [KIga; KForm; KIga; KForm; KSolver; KDm; KDm; KIga; KVec; KSolver] /\
  map (fun x => o_freed (h_obj (fst s) x)) [0; 10; 13; 23; 26; 31; 32; 33; 46; 47]
  = [false; false; false; true; false; false; false; false; false; false] /\
  forallb (fun x => o_freed (h_obj (fst e) (Z.of_nat x))) (seq 0 60) = true.
Proof.
  intros s e. split; [apply after_run; unfold goes, prog_long, legal, arg; legals|].
  split; [apply after_run; unfold goes, prog_long, prog_rest, app, legal, arg; legals|]. legals.
Qed.

(** The hypotheses of the theorems on single calls are met in the middle of such a run. *)
Example C109_hypotheses : let s := after [CIgaCreate; CIgaCreate; CDmIgaCreate 13; CDmCreate; CIgaCreateVec 0; CProbeCreate 0 None] in
  run any (fst s) (snd s) /\ legal (snd s) (fst s) (CIgaSetForm 13 10) /\ legal (snd s) (fst s) (CIgaClone 0) /\
  (legal (snd s) (fst s) (CDmSetIGA 26 0) /\ nth 0 (o_slots (h_obj (fst s) 26)) None = Some 13) /\
  (legal (snd s) (fst s) (CDmSetIGA 27 0) /\ done (api (CDmSetIGA 27 0) (fst s)) = true) /\
  legal (snd s) (fst s) (CProbeSetVec 29 28).
Proof.
  intros s. split; [apply after_run; unfold goes, legal, arg; legals|]. unfold legal, arg. legals.
Qed.
