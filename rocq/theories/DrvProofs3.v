(** Proofs about the assembly drivers: the kernels on a set-up grid. *)
From Coq Require Import ZArith List Bool Lia Reals Lra Permutation FunctionalExtensionality.
From Coq Require Import ZifyBool ZifyNat.
From Verif Require Import Prelude AxisModel AxisSpec AxisInitModel PartModel PartSpec PartProofs SetupModel SetupProofs SetupProps
  Box GridModel GridSpec GridProofs GridProofs2 GridSetup GridProps ElemModel ElemSpec ElemProofs AsmProofs ElemProps
  BCModel BCSpec BCProofs BCProofs2 BCProps DrvModel DrvSpec DrvProofs DrvProofs2.
Import ListNotations.
Open Scope Z_scope.

Definition opt_list {A} (o : option A) : list A := match o with Some x => [x] | None => [] end.
Definition is_some {A} (o : option A) : bool := match o with Some _ => true | None => false end.

Lemma del_values_spec fix_ V i : del_values fix_ V i = match lookup i fix_ with Some _ => 0%R | None => V i end.
Proof.
  unfold del_values. revert V. induction fix_ as [|[k v] l IH]; intros V; cbn [fold_left fst]; auto.
  rewrite IH, lookup_cons. destruct (k =? i) eqn:E.
  - assert (k = i) by lia. subst. destruct (lookup i l); auto. apply upd_same.
  - destruct (lookup i l); auto. apply upd_other. lia.
Qed.
Lemma flux_lookup flux i : NoDup (keys flux) -> flux_at flux i = match lookup i flux with Some w => w | None => 0%R end.
Proof.
  unfold flux_at. induction flux as [|[k v] l IH]; intros ND; [reflexivity|].
  cbn [keys map fst] in ND. apply NoDup_cons_iff in ND. destruct ND as (N1 & N2). rewrite rsum_cons, lookup_cons. cbn [fst snd].
  destruct (k =? i) eqn:E.
  - assert (k = i) by lia. subst. rewrite rsum_zero; [lra|]. intros [x w] Hx. cbn [fst snd]. destruct (x =? i) eqn:E'; auto.
    exfalso. apply N1. apply (in_map fst) in Hx. cbn [fst] in Hx. replace i with x by lia. exact Hx.
  - rewrite IH by auto. lra.
Qed.

Section Grid.
  Variable O : KnotOrd.
  Variables (g2 : Z -> Z -> Z -> Z) (g3 : Z -> Z -> Z -> Z -> Z) (maxint size dim : Z).
  Variable axes : Z -> axis O.
  Variable user : list Z.
  Variable LY : Z -> layout.
  Variable dof : Z.
  Hypothesis Hset : setup_ok g2 g3 maxint size dim axes user LY.
  Hypothesis Hdof : 1 <= dof.
  Variable value load : Z -> Z -> list (Z * R).
  Variable area : triple -> Z -> Z -> R.
  Variable visit : Z -> Z -> bool.
  Variable npts : triple -> form_visit -> Z.
  Variable JW : triple -> form_visit -> Z -> R.
  Hypothesis Hvalue : forall d s, NoDup (map fst (value d s)) /\ forall k, In k (map fst (value d s)) -> 0 <= k.
  Hypothesis Hload : forall d s, NoDup (map fst (load d s)) /\ forall k, In k (map fst (load d s)) -> 0 <= k.
  Hypothesis Hnpts : forall e f, 1 <= npts e f.
  Variable T : option nodal.

  Let N := fun d => if d <? dim then ax_nnp (axes d) else 1.
  Let nel := fun d => if d <? dim then ax_nel (axes d) else 1.
  Let nen := fun d => if d <? dim then ax_p (axes d) + 1 else 1.
  Let first := fun e d => if d <? dim then span_at (axes d) (coord e d) - ax_p (axes d) else 0.
  Let per := fun d => ax_periodic (axes d).
  Let presc := node_prescribed dim per N value T.
  Let loads := fun e a c => match loaded dim per nel (coord e) nen load (area e) a c with Some w => w | None => 0%R end.
  Let n := vol nen * dof.
  Local Notation node := (elem_node N first).
  Local Notation earr := (earr dof N nen first).
  Local Notation copy := (elem_copy N nen first dof).
  Local Notation integral := (integral dim nel visit npts JW).
  Local Notation accumulate := (accumulate dim nel visit npts JW).
  Definition lists (e : triple) : list (Z * R) * list (Z * R) :=
    build_fix dof (option_map (earr e) T) (fun a => a) nen value load (area e) dim per nel (coord e).

  Lemma Hdim : 1 <= dim <= 3.
  Proof. destruct (setup_form _ _ _ _ _ _ _ _ Hset) as (m & _ & _ & H & _). exact H. Qed.
  Lemma Hnen : forall d, 0 <= d < 3 -> 1 <= nen d.
  Proof.
    intros d Hd. unfold nen. destruct (d <? dim) eqn:E; [|lia].
    destruct (setup_wf _ _ _ _ _ _ _ _ Hset d ltac:(lia)) as (l & (_ & (Hp & _) & _) & _). lia.
  Qed.
  Lemma HN : forall d, 0 <= d < 3 -> 1 <= N d.
  Proof.
    intros d Hd. assert (Hs : 1 <= size) by (destruct Hset as (_ & _ & X & _); exact X).
    destruct (setup_node_facts _ _ _ _ _ _ _ _ Hset 0 d ltac:(lia) Hd) as (_ & B & _). exact (proj1 B).
  Qed.

  Lemma g_at x e a c : in_box zero3 nen a -> 0 <= c < dof -> earr e x (lin nen a * dof + c) = x (node e a) c.
  Proof. exact (earr_at dof N nen nel first visit npts JW presc loads Hdof Hnen HN x e a c). Qed.
  Lemma g_ext (A : Z -> R) e x : (forall a c, in_box zero3 nen a -> 0 <= c < dof -> A (lin nen a * dof + c) = x (node e a) c) ->
    (forall i, i < 0 \/ n <= i -> A i = 0%R) -> A = earr e x.
  Proof. exact (earr_ext dof N nen nel first visit npts JW presc loads Hdof Hnen HN A e x). Qed.
  Lemma g_out x e i : i < 0 \/ n <= i -> earr e x i = 0%R.
  Proof. exact (earr_out dof N nen nel first visit npts JW presc loads Hdof Hnen HN x e i). Qed.
  Lemma g_lt a c : in_box zero3 nen a -> 0 <= c < dof -> 0 <= lin nen a * dof + c < n.
  Proof. exact (index_lt dof N nen nel first visit presc Hdof Hnen HN a c). Qed.
  Lemma g_dof i : 0 <= i < n -> exists a c, in_box zero3 nen a /\ 0 <= c < dof /\ i = lin nen a * dof + c.
  Proof. exact (index_dof dof N nen nel first visit presc Hdof Hnen HN i). Qed.
  Lemma g_acc m e cb i : 0 <= i < m -> accumulate m e cb i = integral e (fun f q => cb f q work i).
  Proof. pose proof Hdim as D. exact (accumulate_spec dim nel visit npts JW ltac:(lia) Hnpts m e cb i). Qed.

  Lemma fix_facts e : In e (box zero3 nel) -> fixes_ok n (fst (lists e)) /\ NoDup (keys (snd (lists e))).
  Proof.
    intros _. pose proof Hdim as D.
    pose proof (build_fix_good dof Hdof (option_map (earr e) T) (fun a => a) nen Hnen value load Hvalue Hload (area e) dim ltac:(lia) per nel (coord e)) as (A & B).
    split; [exact A|exact (proj1 B)].
  Qed.
  Lemma fix_lookup e a c : In e (box zero3 nel) -> in_box zero3 nen a -> 0 <= c < dof ->
    lookup (lin nen a * dof + c) (fst (lists e)) = presc (node e a) c /\
    flux_at (snd (lists e)) (lin nen a * dof + c) = loads e a c.
  Proof.
    intros He Ha Hc. pose proof Hdim as D.
    pose proof (build_fix_lookup dof Hdof (option_map (earr e) T) (fun a => a) nen Hnen value load Hvalue Hload (area e) dim ltac:(lia) per nel (coord e) a c Ha Hc) as (A & B).
    split.
    - etransitivity; [exact A|]. apply In_box in He.
      apply (C61_fixed_dofs_agree O dim axes dof value (option_map (earr e) T) T (fun a => a) e a c ltac:(lia)); auto.
      + destruct Hset as (_ & _ & _ & X & _). exact X.
      + assert (HT : forall T' : option nodal, match option_map (earr e) T', T' with
            | Some x, Some y => x (c + lin nen a * dof) = y (node e a) c | None, None => True | _, _ => False end).
        { intros [x|]; cbn [option_map]; [|exact I]. rewrite Z.add_comm. apply g_at; auto. }
        exact (HT T).
    - rewrite flux_lookup by (apply fix_facts; auto). unfold loads. change (match lookup (lin nen a * dof + c) (snd (lists e)) with Some w => w | None => 0%R end =
        match loaded dim per nel (coord e) nen load (area e) a c with Some w => w | None => 0%R end). unfold lists. rewrite B. reflexivity.
  Qed.
  Lemma outside e i : In e (box zero3 nel) -> i < 0 \/ n <= i -> lookup i (fst (lists e)) = None.
  Proof.
    intros He Hi. destruct (lookup i (fst (lists e))) as [v|] eqn:E; auto. destruct (proj1 (fix_facts e He)) as (ND & B).
    apply lookup_In in E; auto. apply (in_map fst) in E. cbn [fst] in E. specialize (B i E). lia.
  Qed.

  (** Inputs as the callback sees them. *)
  Lemma fixed_input e x : In e (box zero3 nel) -> snd (fix_values (fst (lists e)) (earr e x)) = earr e (held presc x).
  Proof.
    intros He. destruct (proj1 (fix_facts e He)) as (ND & B). apply g_ext.
    - intros a c Ha Hc. rewrite (proj2 (fix_values_spec (fst (lists e)) (earr e x) ND)), (proj1 (fix_lookup e a c He Ha Hc)).
      rewrite g_at by auto. unfold held. reflexivity.
    - intros i Hi. rewrite (proj2 (fix_values_spec (fst (lists e)) (earr e x) ND)), (outside e i He Hi).
      apply g_out. exact Hi.
  Qed.
  Lemma deleted_input e x : In e (box zero3 nel) -> del_values (fst (lists e)) (earr e x) = earr e (released presc x).
  Proof.
    intros He. apply g_ext.
    - intros a c Ha Hc. rewrite del_values_spec, (proj1 (fix_lookup e a c He Ha Hc)).
      rewrite g_at by auto. unfold released. reflexivity.
    - intros i Hi. rewrite del_values_spec, (outside e i He Hi). apply g_out. exact Hi.
  Qed.

  (** Outputs. *)
  Lemma function_out e a c x cb : In e (box zero3 nel) -> in_box zero3 nen a -> 0 <= c < dof ->
    fix_function (fst (lists e)) (snd (lists e)) (fst (fix_values (fst (lists e)) (earr e x))) (accumulate (nvec dof nen) e cb) (lin nen a * dof + c) =
    match presc (node e a) c with
    | Some v => (x (node e a) c - v)%R
    | None => (integral e (fun f q => cb f q work (lin nen a * dof + c)%Z) - loads e a c)%R
    end.
  Proof.
    intros He Ha Hc. pose proof (fix_facts e He) as ((ND & B) & _). rewrite fix_function_spec by exact ND.
    destruct (fix_lookup e a c He Ha Hc) as (L1 & L2). rewrite L1, L2. rewrite g_at by auto.
    destruct (presc (node e a) c); auto. rewrite g_acc; auto.
    apply g_lt; auto.
  Qed.
  Lemma mat_index i j : 0 <= i < n -> 0 <= j < n -> 0 <= i * n + j < n * n.
  Proof. clear. intros. nia. Qed.
  Lemma jacobian_out e a c b d cb : In e (box zero3 nel) -> in_box zero3 nen a -> 0 <= c < dof -> in_box zero3 nen b -> 0 <= d < dof ->
    fix_jacobian (nvec dof nen) (fst (lists e)) (accumulate (nmat dof nen) e cb) ((lin nen a * dof + c) * (vol nen * dof) + (lin nen b * dof + d)) =
    match presc (node e a) c, presc (node e b) d with
    | None, None => integral e (fun f q => cb f q work ((lin nen a * dof + c) * (vol nen * dof) + (lin nen b * dof + d)))
    | _, _ => delta (lin nen a * dof + c) (lin nen b * dof + d)
    end.
  Proof.
    intros He Ha Hc Hb Hd. pose proof (fix_facts e He) as (OK & _).
    pose proof (g_lt a c Ha Hc) as Hi. pose proof (g_lt b d Hb Hd) as Hj.
    unfold nvec. rewrite fix_jacobian_spec by auto. unfold is_fixed.
    rewrite (proj1 (fix_lookup e a c He Ha Hc)), (proj1 (fix_lookup e b d He Hb Hd)).
    destruct (presc (node e a) c); cbn [orb]; [reflexivity|]. destruct (presc (node e b) d); cbn [orb]; [reflexivity|].
    rewrite g_acc; auto.
    unfold nmat. apply (mat_index _ _ Hi Hj).
  Qed.
  Lemma system_matrix_out e a c b d cbK cbF : In e (box zero3 nel) -> in_box zero3 nen a -> 0 <= c < dof -> in_box zero3 nen b -> 0 <= d < dof ->
    fst (fix_system (nvec dof nen) (fst (lists e)) (snd (lists e)) (accumulate (nmat dof nen) e cbK) (accumulate (nvec dof nen) e cbF))
      ((lin nen a * dof + c) * (vol nen * dof) + (lin nen b * dof + d)) =
    match presc (node e a) c, presc (node e b) d with
    | None, None => integral e (fun f q => cbK f q work ((lin nen a * dof + c) * (vol nen * dof) + (lin nen b * dof + d)))
    | _, _ => delta (lin nen a * dof + c) (lin nen b * dof + d)
    end.
  Proof.
    intros He Ha Hc Hb Hd. pose proof (fix_facts e He) as (OK & _).
    pose proof (g_lt a c Ha Hc) as Hi. pose proof (g_lt b d Hb Hd) as Hj.
    unfold nvec. rewrite (proj1 (fix_system_spec (vol nen * dof) (fst (lists e)) (snd (lists e)) (accumulate (nmat dof nen) e cbK) (accumulate (vol nen * dof) e cbF) OK)) by auto.
    unfold is_fixed. rewrite (proj1 (fix_lookup e a c He Ha Hc)), (proj1 (fix_lookup e b d He Hb Hd)).
    destruct (presc (node e a) c); cbn [orb]; [reflexivity|]. destruct (presc (node e b) d); cbn [orb]; [reflexivity|].
    rewrite g_acc; auto.
    unfold nmat. apply (mat_index _ _ Hi Hj).
  Qed.
  Lemma system_vector_out e a c cbK cbF : In e (box zero3 nel) -> in_box zero3 nen a -> 0 <= c < dof ->
    snd (fix_system (nvec dof nen) (fst (lists e)) (snd (lists e)) (accumulate (nmat dof nen) e cbK) (accumulate (nvec dof nen) e cbF)) (lin nen a * dof + c) =
    match presc (node e a) c with
    | Some v => v
    | None => (integral e (fun f q => cbF f q work (lin nen a * dof + c)%Z) + loads e a c -
         rsum (fun j => integral e (fun f q => cbK f q work ((lin nen a * dof + c) * n + j)%Z) *
            earr e (fun u d => match presc u d with Some v => v | None => 0 end) j) (zseq 0 n))%R
    end.
  Proof.
    intros He Ha Hc. pose proof (fix_facts e He) as (OK & _). pose proof (g_lt a c Ha Hc) as Hi.
    unfold nvec. rewrite (proj2 (fix_system_spec (vol nen * dof) (fst (lists e)) (snd (lists e)) (accumulate (nmat dof nen) e cbK) (accumulate (vol nen * dof) e cbF) OK)) by auto.
    destruct (fix_lookup e a c He Ha Hc) as (L1 & L2). rewrite L1, L2. destruct (presc (node e a) c); auto.
    rewrite g_acc by auto. f_equal.
    set (pv := fun u d => match presc u d with Some v => v | None => 0%R end). unfold fsum. fold n in Hi |- *. set (i := lin nen a * dof + c) in *.
    set (A := accumulate (nmat dof nen) e cbK).
    transitivity (rsum (fun k : Z * R => (fun j => A (i * n + j)%Z * earr e pv j)%R (fst k)) (fst (lists e))).
    - apply rsum_ext. intros [k v] Hk. cbn [fst snd]. f_equal. destruct OK as (ND & B).
      assert (Hkn : 0 <= k < n) by (apply B; apply (in_map fst) in Hk; exact Hk).
      destruct (g_dof k Hkn) as (b & d & Hb & Hd & ->). rewrite g_at by auto.
      apply (proj2 (lookup_In _ _ _ _ ND)) in Hk. rewrite (proj1 (fix_lookup e b d He Hb Hd)) in Hk. unfold pv. rewrite Hk. reflexivity.
    - etransitivity; [exact (fsum_split n (fst (lists e)) (fun j => (A (i * n + j)%Z * earr e pv j)%R) OK)|]. apply rsum_ext. intros j Hj. apply in_zseq in Hj.
      destruct (g_dof j ltac:(lia)) as (b & d & Hb & Hd & Ej).
      assert (Eq : earr e pv j = pv (node e b) d) by (rewrite Ej; apply g_at; auto).
      rewrite Eq. unfold is_fixed. rewrite Ej at 1. rewrite (proj1 (fix_lookup e b d He Hb Hd)). unfold pv. destruct (presc (node e b) d); [|lra].
      f_equal. unfold A. rewrite g_acc; [reflexivity|].
      unfold nmat. fold n. apply mat_index; auto.
  Qed.

  (** The element's fix lists as the kernels compute them. *)
  Lemma elem_fix_lists e X : elem_fix dim dof nen nel per value load area (is_some T) e (map (copy e) (opt_list T ++ X)) = lists e.
  Proof. unfold elem_fix, table_of, lists. destruct T as [x|]; reflexivity. Qed.
  Lemma input_copy k e X : input (is_some T) k (map (copy e) (opt_list T ++ X)) = arr (nth k (map (copy e) X) []).
  Proof. unfold input, inputs_of. destruct T as [x|]; reflexivity. Qed.
  (** The drivers, run by one process over all elements. *)
  Lemma arr_copy e x : arr (copy e x) = earr e x.
  Proof. reflexivity. Qed.
  Lemma pairing {A B} (p : A * B) : p = (fst p, snd p).
  Proof. destruct p; reflexivity. Qed.

  Lemma s_vector Vector X t c : 0 <= c < dof ->
    serial_vector N nen first dof nel (k_vector dim dof nen nel visit npts JW Vector) X t c =
    plain_vector dim dof N nen nel first visit npts JW (fun e f q => Vector e f q work) t c.
  Proof.
    intros Hc. rewrite serial_vector_scatter. unfold plain_vector. apply scatter_ext. intros e a He Ha _.
    unfold k_vector. rewrite g_acc; [reflexivity|]. apply g_lt; auto.
  Qed.
  Lemma s_matrix Matrix X t c u d : 0 <= c < dof -> 0 <= d < dof ->
    serial_matrix N nen first dof nel (k_matrix dim dof nen nel visit npts JW Matrix) X t c u d =
    plain_matrix dim dof N nen nel first visit npts JW (fun e f q => Matrix e f q work) t c u d.
  Proof.
    intros Hc Hd. rewrite serial_matrix_scatter. unfold plain_matrix, scatter2. apply scatter_ext. intros e a He Ha _.
    apply rsum_ext. intros b Hb. destruct (triple_eqb _ u); auto. unfold k_matrix. rewrite g_acc; [reflexivity|].
    unfold nmat. apply In_box in Hb. apply mat_index; apply g_lt; auto.
  Qed.

  Lemma s_function cb x t c : 0 <= c < dof ->
    serial_vector N nen first dof nel (k_function dim dof nen nel per visit value load area (is_some T) npts JW cb) (opt_list T ++ [x]) t c =
    residual dim dof N nen nel first visit npts JW presc loads (fun e f q => cb e f q (earr e (held presc x)) work) x t c.
  Proof.
    intros Hc. apply residual_serial; auto. intros e a He Ha. unfold k_function.
    rewrite elem_fix_lists, !input_copy. cbn [map nth]. rewrite !arr_copy.
    rewrite (pairing (fix_values (fst (lists e)) (earr e x))). rewrite ?(deleted_input e) by auto. rewrite (fixed_input e x) by auto.
    rewrite function_out; auto.
  Qed.
  Lemma s_jacobian cb x t c u d : 0 <= c < dof -> 0 <= d < dof ->
    serial_matrix N nen first dof nel (k_jacobian dim dof nen nel per visit value load area (is_some T) npts JW cb) (opt_list T ++ [x]) t c u d =
    jacobian dim dof N nen nel first visit npts JW presc (fun e f q => cb e f q (earr e (held presc x)) work) t c u d.
  Proof.
    intros Hc Hd. apply (jacobian_serial dim dof N nen nel first visit npts JW presc loads Hnen HN); auto. intros e a b He Ha Hb.
    unfold k_jacobian. rewrite elem_fix_lists, !input_copy. cbn [map nth]. rewrite !arr_copy.
    rewrite (pairing (fix_values (fst (lists e)) (earr e x))). rewrite ?(deleted_input e) by auto. rewrite (fixed_input e x) by auto.
    apply jacobian_out; auto.
  Qed.

  Lemma s_ifunction cb sh tm y x t c : 0 <= c < dof ->
    serial_vector N nen first dof nel (k_ifunction dim dof nen nel per visit value load area (is_some T) npts JW cb sh tm) (opt_list T ++ [y; x]) t c =
    residual dim dof N nen nel first visit npts JW presc loads (fun e f q => cb e f q sh (earr e (released presc y)) tm (earr e (held presc x)) work) x t c.
  Proof.
    intros Hc. apply residual_serial; auto. intros e a He Ha. unfold k_ifunction.
    rewrite elem_fix_lists, !input_copy. cbn [map nth]. rewrite !arr_copy.
    rewrite (pairing (fix_values (fst (lists e)) (earr e x))). rewrite ?(deleted_input e) by auto. rewrite (fixed_input e x) by auto.
    rewrite function_out; auto.
  Qed.
  Lemma s_ijacobian cb sh tm y x t c u d : 0 <= c < dof -> 0 <= d < dof ->
    serial_matrix N nen first dof nel (k_ijacobian dim dof nen nel per visit value load area (is_some T) npts JW cb sh tm) (opt_list T ++ [y; x]) t c u d =
    jacobian dim dof N nen nel first visit npts JW presc (fun e f q => cb e f q sh (earr e (released presc y)) tm (earr e (held presc x)) work) t c u d.
  Proof.
    intros Hc Hd. apply (jacobian_serial dim dof N nen nel first visit npts JW presc loads Hnen HN); auto. intros e a b He Ha Hb.
    unfold k_ijacobian. rewrite elem_fix_lists, !input_copy. cbn [map nth]. rewrite !arr_copy.
    rewrite (pairing (fix_values (fst (lists e)) (earr e x))). rewrite ?(deleted_input e) by auto. rewrite (fixed_input e x) by auto.
    apply jacobian_out; auto.
  Qed.

  Lemma s_iefunction cb sh tm tp y x x0 t c : 0 <= c < dof ->
    serial_vector N nen first dof nel (k_iefunction dim dof nen nel per visit value load area (is_some T) npts JW cb sh tm tp) (opt_list T ++ [y; x; x0]) t c =
    residual dim dof N nen nel first visit npts JW presc loads (fun e f q => cb e f q sh (earr e (released presc y)) tm (earr e (held presc x)) tp (earr e (held presc x0)) work) x t c.
  Proof.
    intros Hc. apply residual_serial; auto. intros e a He Ha. unfold k_iefunction.
    rewrite elem_fix_lists, !input_copy. cbn [map nth]. rewrite !arr_copy.
    rewrite (pairing (fix_values (fst (lists e)) (earr e x0))). rewrite (fixed_input e x0) by auto. rewrite (pairing (fix_values (fst (lists e)) (earr e x))). rewrite ?(deleted_input e) by auto. rewrite (fixed_input e x) by auto.
    rewrite function_out; auto.
  Qed.
  Lemma s_iejacobian cb sh tm tp y x x0 t c u d : 0 <= c < dof -> 0 <= d < dof ->
    serial_matrix N nen first dof nel (k_iejacobian dim dof nen nel per visit value load area (is_some T) npts JW cb sh tm tp) (opt_list T ++ [y; x; x0]) t c u d =
    jacobian dim dof N nen nel first visit npts JW presc (fun e f q => cb e f q sh (earr e (released presc y)) tm (earr e (held presc x)) tp (earr e (held presc x0)) work) t c u d.
  Proof.
    intros Hc Hd. apply (jacobian_serial dim dof N nen nel first visit npts JW presc loads Hnen HN); auto. intros e a b He Ha Hb.
    unfold k_iejacobian. rewrite elem_fix_lists, !input_copy. cbn [map nth]. rewrite !arr_copy.
    rewrite (pairing (fix_values (fst (lists e)) (earr e x0))). rewrite (fixed_input e x0) by auto. rewrite (pairing (fix_values (fst (lists e)) (earr e x))). rewrite ?(deleted_input e) by auto. rewrite (fixed_input e x) by auto.
    apply jacobian_out; auto.
  Qed.

  Lemma s_rhsfunction cb tm x t c : 0 <= c < dof ->
    serial_vector N nen first dof nel (k_rhsfunction dim dof nen nel per visit value load area (is_some T) npts JW cb tm) (opt_list T ++ [x]) t c =
    residual dim dof N nen nel first visit npts JW presc loads (fun e f q => cb e f q tm (earr e (held presc x)) work) x t c.
  Proof.
    intros Hc. apply residual_serial; auto. intros e a He Ha. unfold k_rhsfunction.
    rewrite elem_fix_lists, !input_copy. cbn [map nth]. rewrite !arr_copy.
    rewrite (pairing (fix_values (fst (lists e)) (earr e x))). rewrite ?(deleted_input e) by auto. rewrite (fixed_input e x) by auto.
    rewrite function_out; auto.
  Qed.
  Lemma s_rhsjacobian cb tm x t c u d : 0 <= c < dof -> 0 <= d < dof ->
    serial_matrix N nen first dof nel (k_rhsjacobian dim dof nen nel per visit value load area (is_some T) npts JW cb tm) (opt_list T ++ [x]) t c u d =
    jacobian dim dof N nen nel first visit npts JW presc (fun e f q => cb e f q tm (earr e (held presc x)) work) t c u d.
  Proof.
    intros Hc Hd. apply (jacobian_serial dim dof N nen nel first visit npts JW presc loads Hnen HN); auto. intros e a b He Ha Hb.
    unfold k_rhsjacobian. rewrite elem_fix_lists, !input_copy. cbn [map nth]. rewrite !arr_copy.
    rewrite (pairing (fix_values (fst (lists e)) (earr e x))). rewrite ?(deleted_input e) by auto. rewrite (fixed_input e x) by auto.
    apply jacobian_out; auto.
  Qed.

  Lemma s_i2function cb sa sv tm z y x t c : 0 <= c < dof ->
    serial_vector N nen first dof nel (k_i2function dim dof nen nel per visit value load area (is_some T) npts JW cb sa sv tm) (opt_list T ++ [z; y; x]) t c =
    residual dim dof N nen nel first visit npts JW presc loads (fun e f q => cb e f q sa (earr e (released presc z)) sv (earr e (released presc y)) tm (earr e (held presc x)) work) x t c.
  Proof.
    intros Hc. apply residual_serial; auto. intros e a He Ha. unfold k_i2function.
    rewrite elem_fix_lists, !input_copy. cbn [map nth]. rewrite !arr_copy.
    rewrite (pairing (fix_values (fst (lists e)) (earr e x))). rewrite ?(deleted_input e) by auto. rewrite (fixed_input e x) by auto.
    rewrite function_out; auto.
  Qed.
  Lemma s_i2jacobian cb sa sv tm z y x t c u d : 0 <= c < dof -> 0 <= d < dof ->
    serial_matrix N nen first dof nel (k_i2jacobian dim dof nen nel per visit value load area (is_some T) npts JW cb sa sv tm) (opt_list T ++ [z; y; x]) t c u d =
    jacobian dim dof N nen nel first visit npts JW presc (fun e f q => cb e f q sa (earr e (released presc z)) sv (earr e (released presc y)) tm (earr e (held presc x)) work) t c u d.
  Proof.
    intros Hc Hd. apply (jacobian_serial dim dof N nen nel first visit npts JW presc loads Hnen HN); auto. intros e a b He Ha Hb.
    unfold k_i2jacobian. rewrite elem_fix_lists, !input_copy. cbn [map nth]. rewrite !arr_copy.
    rewrite (pairing (fix_values (fst (lists e)) (earr e x))). rewrite ?(deleted_input e) by auto. rewrite (fixed_input e x) by auto.
    apply jacobian_out; auto.
  Qed.

  Lemma s_system_matrix SysK SysF X t c u d : 0 <= c < dof -> 0 <= d < dof ->
    serial_matrix N nen first dof nel (fun e ins => fst (k_system dim dof nen nel per visit value load area (is_some T) npts JW SysK SysF e ins)) (opt_list T ++ X) t c u d =
    jacobian dim dof N nen nel first visit npts JW presc (fun e f q => SysK e f q work) t c u d.
  Proof.
    intros Hc Hd. apply (jacobian_serial dim dof N nen nel first visit npts JW presc loads Hnen HN); auto. intros e a b He Ha Hb.
    unfold k_system. rewrite elem_fix_lists. apply system_matrix_out; auto.
  Qed.
  Lemma s_system_vector SysK SysF X t c : 0 <= c < dof ->
    serial_vector N nen first dof nel (fun e ins => snd (k_system dim dof nen nel per visit value load area (is_some T) npts JW SysK SysF e ins)) (opt_list T ++ X) t c =
    system_rhs dim dof N nen nel first visit npts JW presc loads (fun e f q => SysK e f q work) (fun e f q => SysF e f q work) t c.
  Proof.
    intros Hc. apply (system_serial dim dof N nen nel first visit npts JW presc loads Hdof Hnen HN); auto. intros e a He Ha.
    unfold k_system. rewrite elem_fix_lists. apply system_vector_out; auto.
  Qed.
End Grid.
