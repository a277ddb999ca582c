(** C22-C25, C61-C63: boundary condition tables and their application. *)
From Coq Require Import ZArith List Bool Lia Reals Lra Permutation.
From Coq Require Import ZifyBool ZifyNat.
From Verif Require Import Prelude AxisModel AxisSpec PartModel SetupModel SetupProofs AxisInitModel
  Box GridModel GridSpec GridProofs GridProofs2 GridSetup GridProps ElemModel ElemSpec ElemProofs AsmProofs ElemProps
  SetupProps BCModel BCSpec BCProofs BCProofs2.
Import ListNotations.
Open Scope Z_scope.

(** * C22 *)
(** Every call is accepted exactly when legal, and otherwise changes nothing; after any history of calls
    the table of each face holds, for each field, the value last written (and only that), in at most 64
    slots; the form flag likewise. *)
Theorem C22_boundary_tables : forall (V : Type) (calls : list (call V)),
  (forall dim dof op, fst (bc_step dim dof op (bc_run calls)) = Ok <-> legal dim dof op) /\
  (forall dim dof op, ~ legal dim dof op -> bc_step dim dof op (bc_run calls) = (ErrRange, bc_run calls)) /\
  forall a s,
    (forall c v, In (c, v) (fm_value (bc_run calls) a s) <-> last_written writes_value a s c v calls) /\
    (forall c v, In (c, v) (fm_load (bc_run calls) a s) <-> last_written writes_load a s c v calls) /\
    (fm_visit (bc_run calls) a s = true <-> last_written writes_form a s 0 true calls) /\
    NoDup (map fst (fm_value (bc_run calls) a s)) /\ NoDup (map fst (fm_load (bc_run calls) a s)) /\
    (length (fm_value (bc_run calls) a s) <= 64)%nat /\ (length (fm_load (bc_run calls) a s) <= 64)%nat.
Proof.
  intros V calls. split; [intros; apply step_ok|]. split; [intros; apply step_bad; auto|]. intros a s.
  destruct (run_tables V calls a s) as ((A1 & A2) & (B1 & B2)).
  split; [intros c v; rewrite <- lookup_In by exact A1; apply run_lookup|].
  split; [intros c v; rewrite <- lookup_In by exact B1; apply run_lookup|].
  split; [apply run_visit|]. split; [exact A1|]. split; [exact B1|].
  split; change 64%nat with (Z.to_nat 64); apply keys_bound; auto; intros k Hk; [apply A2 in Hk|apply B2 in Hk]; lia.
Qed.
Print Assumptions C22_boundary_tables.

Example C22_example :
  let calls := [(2,3,SetValue 0 1 2 5); (2,3,SetValue 0 1 0 6); (2,3,SetValue 0 1 2 7); (2,3,SetValue 2 0 0 9);
                (2,3,SetLoad 0 1 2 8); (2,3,SetValue 1 0 1 4); (2,3,SetValue 0 1 3 1); (2,3,Clear 1 0)] in
  fm_value (bc_run calls) 0 1 = [(2,7); (0,6)] /\ fm_load (bc_run calls) 0 1 = [(2,8)] /\ fm_value (bc_run calls) 1 0 = [] /\
  fm_value (bc_run calls) 2 0 = [] /\ last_written writes_value 0 1 0 6 (firstn 3 calls).
Proof.
  cbv zeta. repeat (split; [reflexivity|]). cbn [firstn].
  apply (LW_later _ 0 1 0 6 [_; _] (2,3,SetValue 0 1 2 7)).
  - apply (LW_here _ 0 1 0 6 [_] (2,3,SetValue 0 1 0 6)); [|reflexivity]. unfold legal_call, legal. lia.
  - intros [(w & X)|X]; cbn in X; discriminate.
Qed.

(** * C23 *)
(** The fix list of an element: dof c of local node t is listed exactly when some face through t constrains
    c, once, with the value of the last such face (of the fix table if set); the flux list likewise with the
    sum of loads times face areas; both fit the nen*dof slots allocated.  The tables are those C22 gives. *)
Theorem C23_fix_list :
  forall dof dim periodic (sizes ID nen : Z -> Z) value load table mapping area,
  1 <= dof -> 0 <= dim <= 3 -> (forall d, 0 <= d < 3 -> 1 <= nen d) ->
  (forall d s, NoDup (map fst (value d s)) /\ forall k, In k (map fst (value d s)) -> 0 <= k) ->
  (forall d s, NoDup (map fst (load d s)) /\ forall k, In k (map fst (load d s)) -> 0 <= k) ->
  let st := build_fix dof table mapping nen value load area dim periodic sizes ID in
  (forall t c v, in_box zero3 nen t -> 0 <= c < dof ->
     (In (lin nen t * dof + c, v) (fst st) <-> prescribed dim dof periodic sizes ID nen value table mapping t c = Some v) /\
     (In (lin nen t * dof + c, v) (snd st) <-> loaded dim periodic sizes ID nen load area t c = Some v)) /\
  NoDup (map fst (fst st)) /\ NoDup (map fst (snd st)) /\
  (forall k, In k (map fst (fst st)) -> exists t c, in_box zero3 nen t /\ 0 <= c < dof /\ k = lin nen t * dof + c) /\
  (length (fst st) <= Z.to_nat (vol nen * dof))%nat /\ (length (snd st) <= Z.to_nat (vol nen * dof))%nat.
Proof.
  intros dof dim periodic sizes ID nen value load table mapping area Hdof Hdim Hnen Hv Hl st.
  destruct (build_fix_good dof Hdof table mapping nen Hnen value load Hv Hl area dim Hdim periodic sizes ID) as ((G1 & G1') & (G2 & G2')).
  fold st in G1, G1', G2, G2'. split.
  - intros t c v Ht Hc. destruct (build_fix_lookup dof Hdof table mapping nen Hnen value load Hv Hl area dim Hdim periodic sizes ID t c Ht Hc) as (L1 & L2).
    fold st in L1, L2. rewrite <- L1, <- L2. split; symmetry; apply lookup_In; assumption.
  - split; [exact G1|]. split; [exact G2|]. split; [|split; apply keys_bound; auto].
    intros k Hk. specialize (G1' k Hk). exists (unlin nen (k / dof)), (k mod dof).
    pose proof (Hnen 0 ltac:(lia)) as P0. pose proof (Hnen 1 ltac:(lia)) as P1. pose proof (Hnen 2 ltac:(lia)) as P2.
    assert (Hq : 0 <= k / dof < vol nen). { clear - G1' Hdof. split; [apply Z.div_pos; lia|apply Z.div_lt_upper_bound; lia]. }
    assert (Ek : k = k / dof * dof + k mod dof) by (clear - Hdof; rewrite Z.mul_comm; apply Z.div_mod; lia).
    pose proof (Z.mod_pos_bound k dof ltac:(lia)) as M. set (q := k / dof) in *. set (m := k mod dof) in *. clearbody q m.
    destruct (lin_unlin nen q ltac:(lia) ltac:(lia) ltac:(lia) Hq) as (L1 & L2). split; [exact L2|]. split; [exact M|]. rewrite L1. exact Ek.
Qed.
Print Assumptions C23_fix_list.

(** Corner element of a biquadratic grid: the corner node takes the value of axis 1, a load adds up. *)
Example C23_example :
  let value := fun d s => if s =? 0 then (if d =? 0 then [(0, 3%R)] else [(0, 4%R)]) else [] in
  let nen := fun d => if d <? 2 then 2 else 1 in
  fst (build_fix 1 None (fun a => a) nen value (fun _ _ => []) (fun _ _ => 0%R) 2 (fun _ => false) (fun _ => 5) (fun _ => 0))
  = [(0, 4%R); (2, 3%R); (1, 4%R)].
Proof. reflexivity. Qed.

(** * C61 *)
(** All elements (hence all processes) that couple a node agree on whether a component of it is constrained
    and on the value: it depends on the position of the node in the grid only.  [Tl] is the local copy of the
    fix vector, [Tg] the fix vector. *)
Theorem C61_fixed_dofs_agree :
  forall (O : KnotOrd) dim (axes : Z -> axis O) dof value (Tl : option (Z -> R)) (Tg : option (triple -> Z -> R)) (mapping : Z -> Z) e a c,
  0 <= dim <= 3 ->
  (forall d, 0 <= d < dim -> axis_ready (axes d) /\ ends_nonempty (ax_p (axes d)) (ax_m (axes d)) (ax_U (axes d))) ->
  let N := fun d => if d <? dim then ax_nnp (axes d) else 1 in
  let nel := fun d => if d <? dim then ax_nel (axes d) else 1 in
  let nen := fun d => if d <? dim then ax_p (axes d) + 1 else 1 in
  let first := fun e d => if d <? dim then span_at (axes d) (coord e d) - ax_p (axes d) else 0 in
  let per := fun d => ax_periodic (axes d) in
  in_box zero3 nel e -> in_box zero3 nen a ->
  let t := elem_node N first e a in
  match Tl, Tg with Some T, Some T' => T (c + mapping (lin nen a) * dof) = T' t c | None, None => True | _, _ => False end ->
  prescribed dim dof per nel (coord e) nen value Tl mapping a c = node_prescribed dim per N value Tg t c.
Proof.
  intros O dim axes dof value Tl Tg mapping e a c Hdim Hax N nel nen first per He Ha t HT.
  assert (Hon : forall f, In f (faces dim) -> on_face per nel (coord e) nen a f = node_on_face per N t f).
  { intros [d s] Hf. apply in_flat_map in Hf. destruct Hf as (d' & Hd & Hf). apply in_zseq in Hd.
    assert (Hds : d' = d /\ (s = 0 \/ s = 1)) by (destruct Hf as [[= -> ->]|[[= -> ->]|[]]]; lia). destruct Hds as (-> & Hs).
    clear Hf. unfold on_face, node_on_face. unfold per at 1 2. destruct (ax_periodic (axes d)) eqn:Ep; cbn [negb andb]; auto.
    destruct (Hax d ltac:(lia)) as ((l & L) & En). assert (Lw : wf (axes d) l) by exact L.
    destruct (wf_ends (axes d) l Lw En) as (Hn & E0 & E1).
    destruct L as (_ & (Hp & Hm & _) & _ & _ & HN). rewrite Ep in HN.
    assert (Hed : 0 <= coord e d < ax_nel (axes d)).
    { destruct e as [[i j] k]. destruct He as (X & Y & Z0). unfold zero3, nel in *. cbn [coord].
      assert (E : d = 0 \/ d = 1 \/ d = 2) by lia. destruct E as [-> | [-> | ->]];
      [change (0 =? 0) with true|change (1 =? 0) with false; change (1 =? 1) with true|change (2 =? 0) with false; change (2 =? 1) with false]; cbv iota;
      [replace (0 <? dim) with true in X by lia|replace (1 <? dim) with true in Y by lia|replace (2 <? dim) with true in Z0 by lia]; lia. }
    assert (Had : 0 <= coord a d < ax_p (axes d) + 1).
    { destruct a as [[i j] k]. destruct Ha as (X & Y & Z0). unfold zero3, nen in *. cbn [coord].
      assert (E : d = 0 \/ d = 1 \/ d = 2) by lia. destruct E as [-> | [-> | ->]];
      [change (0 =? 0) with true|change (1 =? 0) with false; change (1 =? 1) with true|change (2 =? 0) with false; change (2 =? 1) with false]; cbv iota;
      [replace (0 <? dim) with true in X by lia|replace (1 <? dim) with true in Y by lia|replace (2 <? dim) with true in Z0 by lia]; lia. }
    assert (Et : coord t d = (span_at (axes d) (coord e d) - ax_p (axes d) + coord a d) mod N d).
    { unfold t, elem_node, modbox, tadd, first. destruct a as [[i j] k]. cbn [coord].
      assert (E : d = 0 \/ d = 1 \/ d = 2) by lia. destruct E as [-> | [-> | ->]];
      [change (0 =? 0) with true|change (1 =? 0) with false; change (1 =? 1) with true|change (2 =? 0) with false; change (2 =? 1) with false]; cbv iota;
      [replace (0 <? dim) with true by lia|replace (1 <? dim) with true by lia|replace (2 <? dim) with true by lia]; reflexivity. }
    assert (ENd : N d = ax_m (axes d) - ax_p (axes d)) by (unfold N; replace (d <? dim) with true by lia; exact HN).
    pose proof (span_at_gap (axes d) l Lw 0 (coord e d) ltac:(lia) ltac:(lia) ltac:(lia)) as G0.
    pose proof (span_at_gap (axes d) l Lw (coord e d) (ax_nel (axes d) - 1) ltac:(lia) ltac:(lia) ltac:(lia)) as G1.
    rewrite Z.mod_small in Et by lia. rewrite Et.
    assert (Enen : nen d = ax_p (axes d) + 1) by (unfold nen; replace (d <? dim) with true by lia; reflexivity).
    assert (Enel : nel d = ax_nel (axes d)) by (unfold nel; replace (d <? dim) with true by lia; reflexivity).
    rewrite Enen, Enel, ENd. clear Et ENd Enen Enel HT Ha He Hax. apply eq_true_iff_eq. destruct Hs as [-> | ->].
    - change (0 =? 0) with true. cbv iota. split; intros H.
      + assert (Hc : coord e d = 0 /\ coord a d = 0) by lia. destruct Hc as (Hc & Hc'). rewrite Hc, Hc', E0. lia.
      + lia.
    - change (1 =? 0) with false. cbv iota. split; intros H.
      + assert (Hc : coord e d = ax_nel (axes d) - 1 /\ coord a d = ax_p (axes d)) by lia. destruct Hc as (Hc & Hc'). rewrite Hc, Hc', E1. lia.
      + lia. }
  unfold prescribed, node_prescribed. generalize (@None R). revert Hon. induction (faces dim) as [|f l IH]; intros Hon cur; cbn [fold_left]; auto.
  rewrite (Hon f (or_introl eq_refl)). rewrite IH by (intros; apply Hon; right; auto). f_equal.
  destruct (node_on_face per N t f); auto. destruct (lookup c (value (fst f) (snd f))); auto. f_equal.
  destruct Tl, Tg; try contradiction; auto.
Qed.
Print Assumptions C61_fixed_dofs_agree.

(** * C24 *)
(** Element system: u solves the fixed system iff it takes the prescribed values and satisfies the original
    free equations (with boundary loads); fixed rows read u_k = v; symmetry is kept. *)
Theorem C24_fix_system : forall n fix_ flux K F,
  NoDup (map fst fix_) -> (forall k, In k (map fst fix_) -> 0 <= k < n) ->
  let K' := fst (fix_system n fix_ flux K F) in let F' := snd (fix_system n fix_ flux K F) in
  (forall u, (forall i, 0 <= i < n -> mat_row n K' u i = F' i) <->
     (forall k v, In (k, v) fix_ -> u k = v) /\
     (forall i, 0 <= i < n -> ~ constrained fix_ i ->
        mat_row n K u i = (F i + rsum (fun e => if (fst e =? i)%Z then snd e else 0) flux)%R)) /\
  (forall k v, In (k, v) fix_ -> F' k = v /\ forall j, 0 <= j < n -> K' (k*n + j) = (if k =? j then 1 else 0)%R) /\
  ((forall i j, 0 <= i < n -> 0 <= j < n -> K (i*n+j) = K (j*n+i)) ->
   forall i j, 0 <= i < n -> 0 <= j < n -> K' (i*n+j) = K' (j*n+i)).
Proof.
  intros n fix_ flux K F ND B K' F'. assert (OK : fixes_ok n fix_) by (split; auto).
  destruct (fix_system_spec n fix_ flux K F OK) as (A1 & A2). fold K' in A1. fold F' in A2.
  assert (Hin : forall k v, In (k, v) fix_ -> 0 <= k < n) by (intros k v H; apply B; apply (in_map fst) in H; exact H).
  split; [|split].
  - intros u. destruct (fixed_residual n fix_ flux K F u OK) as (R1 & R2). fold K' F' in R1, R2. split.
    + intros H. assert (U : forall k v, In (k, v) fix_ -> u k = v).
      { intros k v Hk. pose proof (R1 k v (Hin k v Hk) (proj2 (lookup_In _ _ _ _ ND) Hk)) as E. rewrite (H k (Hin k v Hk)) in E. lra. }
      split; auto. intros i Hi Hc. assert (E : lookup i fix_ = None).
      { destruct (lookup i fix_) as [v|] eqn:E; auto. exfalso. apply Hc. exists v. apply lookup_In; auto. }
      pose proof (R2 U i Hi E) as X. rewrite (H i Hi) in X. change (rsum (fun e => if fst e =? i then snd e else 0%R) flux) with (flux_at flux i). lra.
    + intros (U & H) i Hi. destruct (lookup i fix_) as [v|] eqn:E.
      * pose proof (R1 i v Hi E) as X. apply lookup_In in E; auto. rewrite (U i v E) in X. lra.
      * pose proof (R2 U i Hi E) as X. rewrite (H i Hi) in X.
        -- change (rsum (fun e => if fst e =? i then snd e else 0%R) flux) with (flux_at flux i) in X. lra.
        -- intros (v & Hv). apply lookup_In in Hv; auto. congruence.
  - intros k v Hk. pose proof (Hin k v Hk) as Hkn. apply lookup_In in Hk; auto. split.
    + rewrite A2 by auto. rewrite Hk. reflexivity.
    + intros j Hj. rewrite A1 by auto. unfold is_fixed. rewrite Hk. reflexivity.
  - intros Hs i j Hi Hj. rewrite !A1 by auto. rewrite (orb_comm (is_fixed fix_ j)). destruct (is_fixed fix_ i || is_fixed fix_ j); auto.
    unfold delta. rewrite Z.eqb_sym. reflexivity.
Qed.
Print Assumptions C24_fix_system.

(** The whole system: element systems fixed by IGAElementBuildFix + FixSystem and assembled.  x solves it
    iff it has the prescribed values at the constrained dofs and satisfies the original assembled equations
    (with loads) at the others. *)
Theorem C24_assembled_system :
  forall (O : KnotOrd) dim (axes : Z -> axis O) dof (value load : Z -> Z -> list (Z * R)) (area : triple -> Z -> Z -> R)
         (Tl : triple -> option (Z -> R)) (Tg : option (triple -> Z -> R)) (mapping : triple -> Z -> Z) (K F : triple -> Z -> R),
  1 <= dof -> 0 <= dim <= 3 ->
  (forall d, 0 <= d < dim -> axis_ready (axes d) /\ ends_nonempty (ax_p (axes d)) (ax_m (axes d)) (ax_U (axes d))) ->
  (forall d s, NoDup (map fst (value d s)) /\ forall k, In k (map fst (value d s)) -> 0 <= k) ->
  (forall d s, NoDup (map fst (load d s)) /\ forall k, In k (map fst (load d s)) -> 0 <= k) ->
  let N := fun d => if d <? dim then ax_nnp (axes d) else 1 in
  let nel := fun d => if d <? dim then ax_nel (axes d) else 1 in
  let nen := fun d => if d <? dim then ax_p (axes d) + 1 else 1 in
  let first := fun e d => if d <? dim then span_at (axes d) (coord e d) - ax_p (axes d) else 0 in
  let per := fun d => ax_periodic (axes d) in
  (forall d, 0 <= d < dim -> 1 <= ax_nnp (axes d)) ->
  (forall e a c, in_box zero3 nel e -> in_box zero3 nen a -> 0 <= c < dof ->
     match Tl e, Tg with Some T, Some T' => T (c + mapping e (lin nen a) * dof) = T' (elem_node N first e a) c | None, None => True | _, _ => False end) ->
  let lists := fun e => build_fix dof (Tl e) (mapping e) nen value load (area e) dim per nel (coord e) in
  let KF := fun e => fix_system (vol nen * dof) (fst (lists e)) (snd (lists e)) (K e) (F e) in
  let A := serial_matrix N nen first dof nel (fun e _ => K e) [] in
  let b := serial_vector N nen first dof nel (fun e _ i => (F e i + rsum (fun p => if (fst p =? i)%Z then snd p else 0) (snd (lists e)))%R) [] in
  let A' := serial_matrix N nen first dof nel (fun e _ => fst (KF e)) [] in
  let b' := serial_vector N nen first dof nel (fun e _ => snd (KF e)) [] in
  let coupled := fun t => exists e a, in_box zero3 nel e /\ in_box zero3 nen a /\ elem_node N first e a = t in
  let presc := node_prescribed dim per N value Tg in
  forall x : nodal,
  (forall t c, coupled t -> 0 <= c < dof -> node_row N dof A' x t c = b' t c) <->
  (forall t c v, coupled t -> 0 <= c < dof -> presc t c = Some v -> x t c = v) /\
  (forall t c, coupled t -> 0 <= c < dof -> presc t c = None -> node_row N dof A x t c = b t c).
Proof.
  intros O dim axes dof value load area Tl Tg mapping K F Hdof Hdim Hax Hv Hl N nel nen first per Hnnp HT lists KF A b A' b' coupled presc x.
  assert (Hnen : forall d, 0 <= d < 3 -> 1 <= nen d).
  { intros d Hd. unfold nen. destruct (d <? dim) eqn:E; [|lia]. destruct (Hax d ltac:(lia)) as ((l & (_ & (Hp & _) & _)) & _). lia. }
  assert (HN : forall d, 0 <= d < 3 -> 1 <= N d).
  { intros d Hd. unfold N. destruct (d <? dim) eqn:E; [|lia]. apply Hnnp. lia. }
  assert (Hfix : forall e, In e (box zero3 nel) -> fixes_ok (vol nen * dof) (fst (lists e))).
  { intros e _. exact (proj1 (build_fix_good dof Hdof (Tl e) (mapping e) nen Hnen value load Hv Hl (area e) dim Hdim per nel (coord e))). }
  assert (Hgv : forall e a c, In e (box zero3 nel) -> In a (box zero3 nen) -> 0 <= c < dof ->
    lookup (lin nen a * dof + c) (fst (lists e)) = presc (elem_node N first e a) c).
  { intros e a c He Ha Hc. apply In_box in He, Ha.
    etransitivity; [exact (proj1 (build_fix_lookup dof Hdof (Tl e) (mapping e) nen Hnen value load Hv Hl (area e) dim Hdim per nel (coord e) a c Ha Hc))|].
    apply (C61_fixed_dofs_agree O dim axes dof value (Tl e) Tg (mapping e) e a c Hdim Hax He Ha). apply HT; auto. }
  pose proof (global_fix N nen first dof Hdof Hnen nel HN (fun e => fst (lists e)) (fun e => snd (lists e)) K F presc Hfix Hgv x) as G.
  assert (HC : forall t, coupled t <-> touched N nen first nel t).
  { intros t. unfold coupled, touched. split; intros (e & a & H1 & H2 & H3); exists e, a; (split; [apply In_box; auto|split; [apply In_box; auto|auto]]). }
  assert (Rq : forall p q : R, (p - q = 0)%R <-> p = q) by (intros; lra).
  split.
  - intros H. destruct (proj1 G) as (G1 & G2).
    + intros t c Ht Hc. apply Rq. apply H; auto. apply HC; auto.
    + split; [intros t c v Ht; apply G1; apply HC; auto|]. intros t c Ht Hc Hn. apply Rq. apply G2; auto. apply HC; auto.
  - intros (G1 & G2) t c Ht Hc. apply Rq. apply (proj2 G); [|apply HC; auto|auto]. split.
    + intros t' c' v Ht'. apply G1. apply HC; auto.
    + intros t' c' Ht' Hc' Hn. apply Rq. apply G2; auto. apply HC; auto.
Qed.
Print Assumptions C24_assembled_system.

(** The two-periodic/clamped example meets the hypotheses, with conditions on the clamped axis. *)
Example C24_example :
  (forall d, 0 <= d < 2 -> axis_ready (ex_axes d) /\ ends_nonempty (ax_p (ex_axes d)) (ax_m (ex_axes d)) (ax_U (ex_axes d))) /\
  (let value := fun d s => if (d =? 1) && (s =? 0) then [(0, 2%R)] else if d =? 0 then [(0, 7%R)] else [] in
   let N := fun d => if d <? 2 then ax_nnp (ex_axes d) else 1 in
   (ax_nnp (ex_axes 0), ax_periodic (ex_axes 0), ax_nnp (ex_axes 1), ax_periodic (ex_axes 1)) = (8, true, 7, false) /\
   node_prescribed 2 (fun d => ax_periodic (ex_axes d)) N value None (0, 0, 0) 0 = Some 2%R /\
   node_prescribed 2 (fun d => ax_periodic (ex_axes d)) N value None (0, 1, 0) 0 = None) /\
  (let K := fun i => if i =? 0 then 1%R else if i =? 1 then 2%R else if i =? 2 then 2%R else 4%R in
   let KF := fix_system 2 [(1, 3%R)] [(0, 1%R)] K (fun _ => 5%R) in
   fst KF 1 = 0%R /\ fst KF 3 = 1%R /\ snd KF 0 = (5 + 1 - 2 * 3)%R /\ snd KF 1 = 3%R).
Proof. split; [exact ex_axes_ready|]. split; cbv zeta; repeat split. Qed.

(** * C25 *)
(** [resid] is the element residual as a function of the element's values, [J] its Jacobian at the fixed
    state.  Then the pair FixValues/FixFunction computes u - v in constrained rows, and FixJacobian of J is
    the Jacobian of the fixed residual. *)
Theorem C25_function_and_jacobian_agree :
  forall n fix_ flux (resid : (Z -> R) -> Z -> R) (u : Z -> R) (J : Z -> R),
  NoDup (map fst fix_) -> (forall k, In k (map fst fix_) -> 0 <= k < n) ->
  (forall w w' i, (forall j, 0 <= j < n -> w j = w' j) -> resid w i = resid w' i) ->
  let fixed := fun u => snd (fix_values fix_ u) in
  let G := fun u => fix_function fix_ flux (fst (fix_values fix_ u)) (resid (fixed u)) in
  (forall i j, 0 <= i < n -> 0 <= j < n ->
     derivable_pt_lim (fun s => resid (upd (fixed u) j s) i) (fixed u j) (J (i*n+j))) ->
  (forall k, (forall v, In (k, v) fix_ -> fixed u k = v /\ G u k = (u k - v)%R) /\ (~ constrained fix_ k -> fixed u k = u k)) /\
  (forall i j, 0 <= i < n -> 0 <= j < n ->
     derivable_pt_lim (fun s => G (upd u j s) i) (u j) (fix_jacobian n fix_ J (i*n+j))).
Proof.
  intros n fix_ flux resid u J ND B Hext fixed G HJ. assert (OK : fixes_ok n fix_) by (split; auto).
  assert (Ef : forall w i, fixed w i = match lookup i fix_ with Some v => v | None => w i end)
    by (intros w i; apply fix_values_spec; exact ND).
  assert (EG : forall w i, G w i = match lookup i fix_ with Some v => (w i - v)%R | None => (resid (fixed w) i - flux_at flux i)%R end)
    by (intros w i; apply fix_function_spec; exact ND).
  split.
  - intros k. split.
    + intros v Hv. apply lookup_In in Hv; auto. rewrite Ef, EG, Hv. auto.
    + intros Hc. rewrite Ef. destruct (lookup k fix_) as [v|] eqn:E; auto. exfalso. apply Hc. exists v. apply lookup_In; auto.
  - assert (Ext : forall f g x l, (forall s, f s = g s) -> derivable_pt_lim g x l -> derivable_pt_lim f x l).
    { intros f g x l H Hg eps He. destruct (Hg eps He) as (del & Hd). exists del. intros h H1 H2. rewrite !H. apply Hd; auto. }
    intros i j Hi Hj. rewrite (fix_jacobian_spec n fix_ J i j OK Hi Hj). unfold is_fixed.
    destruct (lookup i fix_) as [v|] eqn:Ei.
    + cbn [orb]. apply (Ext _ (fun s => upd u j s i - v)%R); [intros s; rewrite EG, Ei; reflexivity|].
      unfold delta, upd. destruct (i =? j) eqn:E.
      * replace 1%R with (1 - 0)%R by lra. apply derivable_pt_lim_minus; [apply derivable_pt_lim_id|apply derivable_pt_lim_const].
      * replace 0%R with (0 - 0)%R by lra. apply derivable_pt_lim_minus; apply derivable_pt_lim_const.
    + cbn [orb]. apply (Ext _ (fun s => resid (fixed (upd u j s)) i - flux_at flux i)%R); [intros s; rewrite EG, Ei; reflexivity|].
      destruct (lookup j fix_) as [v|] eqn:Ej.
      * replace (delta i j) with (0 - 0)%R.
        2:{ unfold delta. destruct (i =? j) eqn:E; [|lra]. assert (i = j) by lia. subst. congruence. }
        apply derivable_pt_lim_minus; [|apply derivable_pt_lim_const].
        apply (Ext _ (fun _ => resid (fixed u) i)); [|apply derivable_pt_lim_const].
        intros s. apply Hext. intros x _. rewrite !Ef. destruct (lookup x fix_) eqn:Ex; auto. apply upd_other. congruence.
      * replace (J (i*n+j)) with (J (i*n+j)%Z - 0)%R by lra. apply derivable_pt_lim_minus; [|apply derivable_pt_lim_const].
        apply (Ext _ (fun s => resid (upd (fixed u) j s) i)).
        -- intros s. apply Hext. intros x _. rewrite Ef. destruct (lookup x fix_) as [v|] eqn:Ex.
           ++ rewrite upd_other by congruence. rewrite Ef, Ex. reflexivity.
           ++ unfold upd. destruct (x =? j) eqn:E; auto. rewrite Ef, Ex. reflexivity.
        -- replace (u j) with (fixed u j); [apply HJ; auto|]. rewrite Ef, Ej. reflexivity.
Qed.
Print Assumptions C25_function_and_jacobian_agree.

(** A nonlinear residual meeting the hypotheses. *)
Example C25_example :
  let resid := fun (w : Z -> R) (i : Z) => if i =? 0 then (w 0%Z * w 1%Z)%R else w 1 in
  let J := fun x => if x =? 0 then 3%R else if x =? 1 then 2%R else if x =? 2 then 0%R else 1%R in
  let u := fun x => if x =? 0 then 2%R else 9%R in
  let fix_ := [(1, 3%R)] in
  (forall i j, 0 <= i < 2 -> 0 <= j < 2 ->
     derivable_pt_lim (fun s => resid (upd (snd (fix_values fix_ u)) j s) i) (snd (fix_values fix_ u) j) (J (i*2+j))) /\
  fix_jacobian 2 fix_ J 0 = 3%R /\ fix_jacobian 2 fix_ J 1 = 0%R.
Proof.
  cbv zeta. split; [|split; reflexivity]. intros i j Hi Hj.
  assert (Ei : i = 0 \/ i = 1) by lia. assert (Ej : j = 0 \/ j = 1) by lia.
  destruct Ei as [-> | ->], Ej as [-> | ->]; unfold upd; cbn [fix_values fold_left fst snd].
  - change (derivable_pt_lim (fun s => s * 3)%R 2%R 3%R). cut (derivable_pt_lim (fun s => s * 3)%R 2%R (1 * 3 + 2 * 0)%R); [intros H; replace (1 * 3 + 2 * 0)%R with 3%R in H by lra; exact H|].
    apply (derivable_pt_lim_mult (fun s => s) (fun _ => 3%R)); [apply derivable_pt_lim_id|apply derivable_pt_lim_const].
  - change (derivable_pt_lim (fun s => 2 * s)%R 3%R 2%R). cut (derivable_pt_lim (fun s => 2 * s)%R 3%R (0 * 3 + 2 * 1)%R); [intros H; replace (0 * 3 + 2 * 1)%R with 2%R in H by lra; exact H|].
    apply (derivable_pt_lim_mult (fun _ => 2%R) (fun s => s)); [apply derivable_pt_lim_const|apply derivable_pt_lim_id].
  - apply derivable_pt_lim_const.
  - apply derivable_pt_lim_id.
Qed.

(** * C62 *)
(** Collocation: the value imposed by the linear path (IGAComputeSystem: IGAElementFixSystem) differs from the
    one imposed by the nonlinear path (IGAElementBuildFix: fix table) at the same dof. *)
Theorem C62_collocation_fix_table_refuted :
  exists dim dof (nen sizes first : Z -> Z) value (T : Z -> R) mapping shape K F c w,
    (forall d, 1 <= nen d) /\ 0 <= c < dof /\
    In (c, w) (build_fix_colloc dof (Some T) mapping nen value dim (fun _ => false) sizes first) /\
    first 0 = 0 /\ mapping 0 = 0 /\ T c = w /\
    snd (fix_system_colloc dim dof (vol nen) sizes (fun _ => 0) value shape K F) c <> w.
Proof.
  exists 1, 1, (fun d => if d =? 0 then 2 else 1), (fun _ => 5), (fun _ => 0), (fun d s => if s =? 0 then [(0, 1%R)] else []),
    (fun _ => 2%R), (fun a => a), (fun _ => 1%R), (fun _ => 0%R), (fun _ => 0%R), 0, 2%R.
  split; [intros d; destruct (d =? 0); lia|]. split; [lia|]. split; [left; reflexivity|].
  repeat (split; [reflexivity|]). vm_compute. lra.
Qed.
Print Assumptions C62_collocation_fix_table_refuted.

(** * C63 *)
(** Quadrature: conditions set on periodic axes have no effect. *)
Theorem C63_quadrature_ignores_periodic_axes :
  forall dof dim periodic (sizes ID nen : Z -> Z) value load value' load' table mapping area,
  (forall d s, periodic d = false -> value d s = value' d s /\ load d s = load' d s) ->
  build_fix dof table mapping nen value load area dim periodic sizes ID =
  build_fix dof table mapping nen value' load' area dim periodic sizes ID.
Proof.
  intros dof dim periodic sizes ID nen value load value' load' table mapping area H. unfold build_fix.
  generalize (@nil (Z*R), @nil (Z*R)). induction (zseq 0 dim) as [|d l IH]; intros st; cbn [fold_left]; auto.
  rewrite IH. f_equal. destruct (periodic d) eqn:E; [rewrite !andb_false_r; reflexivity|].
  unfold build_face. destruct (H d 0 E) as (-> & ->), (H d 1 E) as (-> & ->). reflexivity.
Qed.
Print Assumptions C63_quadrature_ignores_periodic_axes.
(** Collocation: the first node of a periodic axis is constrained, in both paths, and the linear path also
    overwrites the equation of the last collocation point with side 1's condition. *)
Theorem C63_collocation_fixes_periodic_nodes_refuted :
  exists dim dof (nen sizes : Z -> Z) value shape K F,
    let periodic := fun _ : Z => true in
    build_fix_colloc dof None (fun a => a) nen value dim periodic sizes (fun _ => 0) <> [] /\
    snd (fix_system_colloc dim dof (vol nen) sizes (fun _ => 0) value shape K F) 0 <> F 0 /\
    snd (fix_system_colloc dim dof (vol nen) sizes (fun d => sizes d - 1) value shape K F) 0 <> F 0.
Proof.
  exists 1, 1, (fun d => if d =? 0 then 2 else 1), (fun _ => 5), (fun d s => [(0, 1%R)]), (fun _ => 1%R), (fun _ => 0%R), (fun _ => 0%R).
  cbv zeta. split; [vm_compute; discriminate|]. split; vm_compute; lra.
Qed.
Print Assumptions C63_collocation_fixes_periodic_nodes_refuted.
