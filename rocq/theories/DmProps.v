(** The DM of an IGA: properties C113-C116. *)
From Coq Require Import ZArith String List Bool Lia.
From Verif Require Import Prelude Box GridModel GridSpec GridProofs GridProps DmModel DmSpec DmProofs.
Import ListNotations.
Open Scope Z_scope.

(** * C113: selecting fields *)
(** The DM of the selected fields [fields 0], ..., [fields (nf-1)] and the index set: component k of a
    node in a vector of the new DM is, through the index set, component [fields k] of the same node in a
    vector of the old one, on any number of processes, and every process holds as many indices as
    entries of the new DM's vectors. *)
Theorem C113_sub_dm :
  forall dbg map d g N nf fields,
  d_iga d = Some g -> ready N g -> 1 <= nf -> (forall i, 0 <= i < nf -> 0 <= fields i < g_dof g) ->
  (dbg = false \/ g_names g = None \/ forall i, 0 <= i < nf -> name_of g (fields i) <> None) ->
  exists is e n, DMCreateSubDM dbg map d nf fields = (Ok, (is, e)) /\ d_iga e = Some n /\
    ready N n /\ describes e n /\ g_dof n = nf /\ g_dim n = g_dim g /\ g_nsd n = g_nsd g /\ g_size n = g_size g /\
    (forall i, 0 <= i < nf -> name_of n i = name_of g (fields i)) /\
    Z.of_nat (length is) = g_size g /\
    (forall r, 0 <= r < g_size g ->
       Z.of_nat (length (nth (Z.to_nat r) is [])) = g_dof n * nlocal (g_nodes n r) /\
       nlocal (g_nodes n r) = nlocal (g_nodes g r)) /\
    (forall t k, in_box zero3 N t -> 0 <= k < nf ->
       nth (Z.to_nat (entry N n t k)) (concat is) 0 = entry N g t (fields k)).
Proof.
  intros dbg map d g N nf fields I (HS & HD & W & HV & HM) Hnf HF HN.
  destruct (SubDM_eq dbg map d g nf fields I HS HD Hnf HF HN) as (n & E & En & Nn).
  set (is := List.map (sub_is (g_nodes g) nf fields) (zseq 0 (g_size g))) in *.
  exists is, (dm_of n), n. split; [exact E|]. split; [reflexivity|].
  split. { rewrite En. unfold ready. cbn. split; [reflexivity|]. split; [exact HD|]. split; [|split; discriminate].
    eapply world_with_dof; eauto. }
  split; [repeat split|]. split; [rewrite En; reflexivity|]. split; [rewrite En; reflexivity|].
  split; [rewrite En; reflexivity|]. split; [rewrite En; reflexivity|].
  split; [exact Nn|]. pose proof (world_size _ _ _ _ W) as Hsz.
  split. { unfold is. rewrite map_length, length_zseq. lia. }
  split.
  - intros r Hr. rewrite En. cbn [g_dof g_nodes]. rewrite nlocal_with_dof. split; [|reflexivity].
    unfold is. rewrite nth_map_zseq by lia. rewrite Z.add_0_l. rewrite (sub_is_eq _ _ _ _ W) by lia.
    apply len_blocks; [lia|]. apply (world_nlocal _ _ _ _ W). exact Hr.
  - intros t k Ht Hk. unfold is. rewrite <- flat_map_concat_map.
    change (flat_map (sub_is (g_nodes g) nf fields) (zseq 0 (g_size g))) with (is_global (g_size g) (sub_is (g_nodes g) nf fields)).
    rewrite (sub_is_all _ _ _ _ W). rewrite En. unfold entry. cbn [g_dof g_size g_nodes]. rewrite ao_with_dof.
    rewrite nth_blocks with (h := fun j i => j * g_dof g + fields i); [ring| |exact Hk].
    rewrite (off_size _ _ _ _ W). apply (ao_range _ _ _ _ W). apply lin_in_range. exact Ht.
Qed.
Print Assumptions C113_sub_dm.

(** A field that does not exist is rejected. *)
Theorem C113_sub_dm_range :
  forall dbg map d g nf fields i, d_iga d = Some g -> 0 <= i < nf -> ~ 0 <= fields i < g_dof g ->
  fst (DMCreateSubDM dbg map d nf fields) = ErrRange.
Proof.
  intros dbg map d g nf fields i I Hi Hf. unfold DMCreateSubDM. rewrite I.
  rewrite (fields_ok_false _ _ _ _ Hi Hf). reflexivity.
Qed.
Print Assumptions C113_sub_dm_range.

(** An empty selection: no index is selected, yet the DM has all the fields. *)
Theorem C113_sub_dm_empty :
  forall map d g N fields, d_iga d = Some g -> ready N g ->
  exists is e n, DMCreateSubDM false map d 0 fields = (Ok, (is, e)) /\ concat is = [] /\
    d_iga e = Some n /\ g_dof n = g_dof g.
Proof.
  intros map d g N fields I (HS & HD & W & HV & HM).
  unfold DMCreateSubDM. rewrite I. unfold fields_ok. rewrite zseq_nil by lia. cbn [forallb negb].
  rewrite clone_dof0 by (auto; try lia; apply (world_bs _ _ _ _ W)).
  set (is := List.map _ _).
  assert (EI : concat is = []).
  { unfold is. rewrite <- flat_map_concat_map.
    change (flat_map (sub_is (g_nodes g) 0 fields) (zseq 0 (g_size g))) with (is_global (g_size g) (sub_is (g_nodes g) 0 fields)).
    rewrite (sub_is_all _ _ _ _ W). rewrite zseq_nil by lia. generalize (zseq 0 (off (g_nodes g) (g_size g))) as l.
    induction l; auto. }
  exists is, (dm_of (clone_of map g (g_dof g))), (clone_of map g (g_dof g)).
  destruct (g_names g) as [f|]; cbn [copy_names]; rewrite DMIGACreate_eq by reflexivity; repeat split; exact EI.
Qed.
Print Assumptions C113_sub_dm_empty.

(** * C114: one index set per field *)
(** The number of fields and their names: those given, else the number of the field. *)
Theorem C114_names :
  forall fmt d g N, d_iga d = Some g -> ready N g ->
  exists is, DMCreateFieldIS fmt d =
    (Ok, (g_dof g, map (fun i => match name_of g i with Some s => s | None => fmt i end) (zseq 0 (g_dof g)), is)) /\
    Z.of_nat (length is) = g_dof g /\
    forall i, 0 <= i < g_dof g -> Z.of_nat (length (nth (Z.to_nat i) is [])) = g_size g.
Proof.
  intros fmt d g N I (HS & HD & W & _). unfold DMCreateFieldIS. rewrite I.
  pose proof (world_size _ _ _ _ W) as Hsz. pose proof (world_bs _ _ _ _ W) as Hbs.
  rewrite (world_dof _ _ _ _ W 0) by lia. eexists. split; [|split].
  - do 2 f_equal. f_equal. apply map_ext_in. intros i Hi. apply in_zseq in Hi.
    unfold field_name, IGAGetFieldName, name_of. replace (g_dof g <? 1) with false by lia.
    replace ((i <? 0) || (g_dof g <=? i)) with false by lia. reflexivity.
  - rewrite map_length, length_zseq. lia.
  - intros i Hi. rewrite nth_map_zseq by lia. rewrite map_length, length_zseq. lia.
Qed.
Print Assumptions C114_names.

(** On one process, and for IGAs of one component on any number, the index set of field i lists
    component i of all nodes in the order of the nodes. *)
Theorem C114_one_process :
  forall fmt d g N k nm is, d_iga d = Some g -> ready N g -> g_size g = 1 \/ g_dof g = 1 ->
  DMCreateFieldIS fmt d = (Ok, (k, nm, is)) ->
  (forall t i, in_box zero3 N t -> 0 <= i < g_dof g ->
     nth (Z.to_nat (ao (g_size g) (g_nodes g) (lin N t))) (concat (nth (Z.to_nat i) is [])) 0 = entry N g t i) /\
  (forall i, 0 <= i < g_dof g -> Z.of_nat (length (concat (nth (Z.to_nat i) is []))) = vol N) /\
  (* every entry belongs to the index set of exactly one field *)
  (forall x, 0 <= x < g_dof g * vol N -> exists! i, 0 <= i < g_dof g /\ In x (concat (nth (Z.to_nat i) is []))).
Proof.
  intros fmt d g N k nm is I (HS & HD & W & _) H1 E. unfold DMCreateFieldIS in E. rewrite I in E.
  pose proof (world_size _ _ _ _ W) as Hsz. pose proof (world_bs _ _ _ _ W) as Hbs.
  rewrite (world_dof _ _ _ _ W 0) in E by lia. injection E as _ _ <-.
  assert (A : forall i, 0 <= i < g_dof g ->
    concat (nth (Z.to_nat i) (map (fun i => map (field_is (g_nodes g) i) (zseq 0 (g_size g))) (zseq 0 (g_dof g))) []) =
    map (fun b => i + b * g_dof g) (zseq 0 (vol N))).
  { intros i Hi. rewrite nth_map_zseq by lia. rewrite Z.add_0_l. rewrite <- flat_map_concat_map.
    destruct H1 as [H1|H1].
    - rewrite H1. change (zseq 0 1) with [0]. cbn [flat_map]. rewrite app_nil_r.
      rewrite (field_is_eq _ _ _ _ W) by lia. rewrite <- (off_size _ _ _ _ W), H1.
      assert (O0 : off (g_nodes g) 0 = 0) by (unfold off; apply zsum_0).
      pose proof (off_next (g_nodes g) 0 ltac:(lia)) as O1. rewrite O0 in O1. rewrite !Z.add_0_l in O1. rewrite O0, O1.
      reflexivity.
    - assert (i = 0) as -> by lia. rewrite H1.
      rewrite <- (off_size _ _ _ _ W).
      transitivity (flat_map (fun b => [0 + b * 1]) (zseq 0 (off (g_nodes g) (g_size g)))).
      + rewrite <- (ranks_concat _ _ _ _ W _ _ (g_size g)) by lia.
        assert (K : forall r, In r (zseq 0 (g_size g)) -> 0 <= r < g_size g) by (intros r Hr; apply in_zseq in Hr; lia).
        induction (zseq 0 (g_size g)) as [|r l IH]; [reflexivity|]. cbn [flat_map]. f_equal.
        * assert (Hr : 0 <= r < g_size g) by (apply K; left; reflexivity).
          rewrite (field_is_eq _ _ _ _ W) by exact Hr. rewrite H1.
          generalize (nlocal (g_nodes g r)). generalize (off (g_nodes g) r). intros o m.
          transitivity (map (fun b => 0 + b * 1) (zseq o m)).
          -- replace (zseq o m) with (map (fun x => x + o) (zseq 0 m)) by (rewrite zseq_shift; f_equal; lia).
             rewrite map_map. apply map_ext. intros. ring.
          -- induction (zseq o m) as [|x l' IHl]; [reflexivity|]. cbn [map flat_map app]. rewrite IHl. reflexivity.
        * apply IH. intros q Hq. apply K. right. exact Hq.
      + induction (zseq 0 (off (g_nodes g) (g_size g))) as [|x l' IHl]; [reflexivity|]. cbn [map flat_map app]. rewrite IHl. reflexivity. }
  split; [|split].
  - intros t i Ht Hi. rewrite A by exact Hi.
    assert (R : 0 <= ao (g_size g) (g_nodes g) (lin N t) < vol N) by (apply (ao_range _ _ _ _ W); apply lin_in_range; exact Ht).
    rewrite nth_map_zseq by exact R. unfold entry. ring.
  - intros i Hi. rewrite A by exact Hi. rewrite map_length, length_zseq.
    assert (0 <= vol N); [|lia]. rewrite <- (off_size _ _ _ _ W). apply (off_nonneg _ _ _ _ W). lia.
  - intros x Hx. exists (x mod g_dof g). split.
    + pose proof (Z.mod_pos_bound x (g_dof g) ltac:(lia)) as B. split; [exact B|]. rewrite A by exact B.
      apply in_map_iff. exists (x / g_dof g). split.
      * pose proof (Z.div_mod x (g_dof g) ltac:(lia)). lia.
      * apply in_zseq. assert (0 <= x / g_dof g) by (apply Z.div_pos; lia).
        assert (x / g_dof g < vol N) by (apply Z.div_lt_upper_bound; lia). lia.
    + intros i [Hi HI]. rewrite A in HI by exact Hi. apply in_map_iff in HI. destruct HI as (b & Eb & _).
      rewrite <- Eb. rewrite Z.mod_add by lia. apply Z.mod_small. exact Hi.
Qed.
Print Assumptions C114_one_process.

(** In general the k-th index of field i on rank r is that of component i of the k-th node of the rank
    minus (dof-1) times the number of nodes of the ranks before. *)
Theorem C114_exact :
  forall size bs N G i r k, grid_world size bs N G -> 0 <= r < size -> 0 <= k < nlocal (G r) ->
  nth (Z.to_nat k) (field_is G i r) 0 = bs * (off G r + k) + i - (bs - 1) * off G r.
Proof.
  intros size bs N G i r k W Hr Hk. rewrite (field_is_eq _ _ _ _ W) by exact Hr.
  rewrite nth_map_zseq by exact Hk. ring.
Qed.
Print Assumptions C114_exact.

(** Hence with several components, as soon as no process owns all nodes, the last entry of the vectors
    is in the index set of no field: the fields do not make up the vector. *)
Theorem C114_last_entry_missed :
  forall size bs N G i r, grid_world size bs N G -> 2 <= bs -> (forall q, 0 <= q < size -> nlocal (G q) < vol N) ->
  0 <= i < bs -> 0 <= r < size -> ~ In (bs * vol N - 1) (field_is G i r).
Proof.
  intros size bs N G i r W Hb HN Hi Hr HI. rewrite (field_is_eq _ _ _ _ W) in HI by exact Hr.
  apply in_map_iff in HI. destruct HI as (k & Ek & Hk). apply in_zseq in Hk.
  pose proof (off_nonneg _ _ _ _ W r ltac:(lia)) as O. pose proof (off_mono _ _ _ _ W (r + 1) size ltac:(lia) ltac:(lia)) as M.
  rewrite off_next in M by lia. rewrite (off_size _ _ _ _ W) in M. specialize (HN r Hr).
  generalize dependent (vol N). generalize dependent (off G r). generalize dependent (nlocal (G r)).
  clear - Hb Hi. intros n Hk o O v Ek M HN.
  destruct (Z.eq_dec o 0) as [->|Ho]; nia.
Qed.
Print Assumptions C114_last_entry_missed.

(** Two processes with one node each, two components. *)
Definition two_nodes (r : Z) : grid :=
  mk_grid 2 (fun d => if d =? 0 then 2 else 1) (fun d => if d =? 0 then r else 0) (fun _ => 1)
          (fun d => if d =? 0 then 0 else 0) (fun d => if d =? 0 then 2 else 1).
Definition two_iga (names : option (Z -> option string)) : iga :=
  mk_iga 1 0 2 true (Some VECSTANDARD) (Some MATBAIJ) names 2 two_nodes 7.
Definition two_N : Z -> Z := fun d => if d =? 0 then 2 else 1.

Lemma two_world : grid_world 2 2 two_N two_nodes.
Proof.
  split; [lia|]. split; [lia|]. split.
  - intros d Hd. unfold two_N. destruct (d =? 0); lia.
  - split.
    + intros r Hr. split; [reflexivity|]. intros d Hd. unfold two_nodes, two_N. cbn. destruct (d =? 0); lia.
    + intros [[i j] k] H. assert (Hb : 0 <= i < 2 /\ 0 <= j < 1 /\ 0 <= k < 1) by exact H. clear H. exists i. split.
      * split; [lia|]. change (i <= i < i + 1 /\ 0 <= j < 0 + 1 /\ 0 <= k < 0 + 1). lia.
      * intros r [Hr H']. change (r <= i < r + 1 /\ 0 <= j < 0 + 1 /\ 0 <= k < 0 + 1) in H'. lia.
Qed.
Lemma two_ready : forall names, ready two_N (two_iga names).
Proof. intros. split; [reflexivity|]. split; [change (1 <= 1); lia|]. split; [exact two_world|]. split; discriminate. Qed.

(** The index sets [0,2], [1,3] expected are [0,1], [1,2]. *)
Theorem C114_two_processes_refuted :
  exists fmt d g N nm is x, d_iga d = Some g /\ ready N g /\ describes d g /\
    DMCreateFieldIS fmt d = (Ok, (2, nm, is)) /\
    (* entry x of the vectors belongs to no field, entry 1 to two *)
    0 <= x < g_dof g * vol N /\ (forall i, 0 <= i < 2 -> ~ In x (concat (nth (Z.to_nat i) is []))) /\
    (forall i, 0 <= i < 2 -> In 1 (concat (nth (Z.to_nat i) is []))).
Proof.
  exists (fun _ => ""%string), (dm_of (two_iga None)), (two_iga None), two_N.
  exists [""; ""]%string, [[[0]; [1]]; [[1]; [2]]], 3.
  split; [reflexivity|]. split; [apply two_ready|]. split; [repeat split|]. split; [vm_compute; reflexivity|].
  split; [change (0 <= 3 < 4); lia|].
  split; intros i Hi; assert (i = 0 \/ i = 1) as [-> | ->] by lia.
  - change (~ In 3 [0; 1]). cbn [In]. lia.
  - change (~ In 3 [1; 2]). cbn [In]. lia.
  - change (In 1 [0; 1]). cbn [In]. lia.
  - change (In 1 [1; 2]). cbn [In]. lia.
Qed.
Print Assumptions C114_two_processes_refuted.

(** In a debug build a decomposition fails when only some of the fields have names. *)
Theorem C114_names_refuted :
  exists d g N i, d_iga d = Some g /\ ready N g /\ 0 <= i < g_dof g /\
    fst (field_dm true 8 d i) <> Ok /\ fst (field_dm false 8 d i) = Ok.
Proof.
  exists (dm_of (two_iga (Some (fun i => if i =? 0 then Some "pressure"%string else None)))).
  eexists. exists two_N, 1. split; [reflexivity|]. split; [apply two_ready|]. split; [change (0 <= 1 < 2); lia|].
  split; [vm_compute; discriminate|vm_compute; reflexivity].
Qed.
Print Assumptions C114_names_refuted.

(** Selecting the second of two fields on two processes: indices 1 and 3. *)
Example ex_select : exists e, DMCreateSubDM true 8 (dm_of (two_iga None)) 1 (fun _ => 1) = (Ok, ([[1]; [3]], e)) /\ d_bs e = 1.
Proof. eexists. split; [vm_compute; reflexivity|reflexivity]. Qed.
(** Both in the other order. *)
Example ex_swap : exists e, DMCreateSubDM true 8 (dm_of (two_iga None)) 2 (fun i => 1 - i) = (Ok, ([[1; 0]; [3; 2]], e)) /\ d_bs e = 2.
Proof. eexists. split; [vm_compute; reflexivity|reflexivity]. Qed.

(** * C115: the DM describes its IGA *)
Theorem C115_describes :
  forall d, made d -> d_setup d = true -> exists g, d_iga d = Some g /\ g_setup g = true /\ 1 <= g_dof g /\ describes d g.
Proof.
  intros d M H. destruct (made_sound d M) as [U S]. destruct (S H) as (g & I & Sg & D). exists g.
  split; [exact I|]. split; [exact Sg|]. split; [|exact D]. apply (U g I Sg).
Qed.
Print Assumptions C115_describes.

(** Setting up gives the DM the types of the IGA: those the IGA was given, else PETSc's standard vectors
    and blocked matrices when there are several components. *)
Theorem C115_setup :
  forall opts nodes map d g d', d_setup d = false -> d_iga d = Some g -> DMSetUp opts nodes map d = (Ok, d') ->
  d_setup d' = true /\
  (g_setup g = false ->
   d_vectype d' = Some (match g_vectype g with Some t => t | None => VECSTANDARD end) /\
   d_mattype d' = Some (match g_mattype g with Some t => t | None => if 1 <? g_dof g then MATBAIJ else MATAIJ end)) /\
  (g_setup g = true -> d_vectype d' = g_vectype g /\ d_mattype d' = g_mattype g /\ d_iga d' = Some g).
Proof.
  intros opts nodes map d g d' HS I E. unfold DMSetUp in E. rewrite HS in E. unfold DMSetUp_IGA in E. rewrite I in E.
  unfold IGASetUp in E. destruct (g_setup g) eqn:GS.
  - injection E as <-. cbn. split; [reflexivity|]. split; [discriminate|auto].
  - destruct (g_dim g <? 1); [discriminate|]. injection E as <-. cbn. split; [reflexivity|]. split; [|discriminate].
    intros _. split; [destruct (g_vectype g); reflexivity|]. destruct (g_mattype g); [reflexivity|]. cbn [or_else].
    destruct (g_dof g <? 1) eqn:Q; [|reflexivity]. replace (1 <? g_dof g) with false by lia. reflexivity.
Qed.
Print Assumptions C115_setup.

(** The vectors and matrices of the DM have its types and block size and know the DM; making one leaves
    the DM and its IGA as they were. *)
Theorem C115_objects :
  forall ok d g, made d -> d_setup d = true -> d_iga d = Some g ->
  (forall t, d_vectype d = Some t -> ok (Some t) = true ->
     DMCreateVector ok d = (Ok, (d, mk_obj (Some t) (d_bs d) true))) /\
  (forall t, d_mattype d = Some t -> ok (Some t) = true ->
     DMCreateMatrix ok d = (Ok, (d, mk_obj (Some t) (d_bs d) true))).
Proof.
  intros ok d g M HS I. destruct (made_sound d M) as [U S]. destruct (S HS) as (g' & I' & Sg & D).
  rewrite I in I'. injection I' as <-. destruct D as (D1 & D2 & D3 & D4). split; intros t Ht Hok.
  - unfold DMCreateVector. rewrite I, Ht. unfold IGACreateVec. cbn [set_vectype g_setup g_vectype g_dof]. rewrite Sg.
    cbn [negb]. rewrite Hok. unfold attach. cbn [o_type o_bs]. rewrite D1. do 2 f_equal.
    transitivity (put_iga d (set_vectype g (g_vectype g))); [reflexivity|]. rewrite set_vectype_id. apply put_iga_id. exact I.
  - unfold DMCreateMatrix. rewrite I, Ht. unfold IGACreateMat. cbn [set_mattype g_setup g_mattype g_dof]. rewrite Sg.
    cbn [negb]. rewrite Hok. unfold attach. cbn [o_type o_bs]. rewrite D1. do 2 f_equal.
    transitivity (put_iga d (set_mattype g (g_mattype g))); [reflexivity|]. rewrite set_mattype_id. apply put_iga_id. exact I.
Qed.
Print Assumptions C115_objects.

(** Clones and coordinate DMs share nodes and geometry with the DM and have as many components as it,
    respectively as the space has dimensions. *)
Theorem C115_derived :
  forall map d g N, d_iga d = Some g -> ready N g ->
  (exists e n, DMClone map d = (Ok, e) /\ d_iga e = Some n /\ ready N n /\ describes e n /\
     g_dof n = g_dof g /\ g_dim n = g_dim g /\ g_nsd n = g_nsd g /\
     forall t c, entry N n t c = entry N g t c) /\
  (exists e n, DMCreateCoordinateDM map d = (Ok, e) /\ d_iga e = Some n /\ ready N n /\ describes e n /\
     g_dof n = Z.max (g_dim g) (g_nsd g) /\ g_dim n = g_dim g /\ g_nsd n = g_nsd g /\
     forall x, ao (g_size n) (g_nodes n) x = ao (g_size g) (g_nodes g) x).
Proof.
  intros map d g N I (HS & HD & W & HV & HM). pose proof (world_bs _ _ _ _ W) as Hbs. split.
  - unfold DMClone. rewrite I, clone_eq by auto. unfold DMSetUp, DMSetUp_IGA, IGASetUp. cbn [d_setup d_iga g_setup clone_of].
    eexists. exists (clone_of map g (g_dof g)). split; [reflexivity|]. split; [reflexivity|].
    split. { split; [reflexivity|]. split; [exact HD|]. split; [|split; discriminate]. cbn. eapply world_with_dof; eauto. }
    repeat split.
  - unfold DMCreateCoordinateDM. rewrite I, clone_eq by (auto; lia). rewrite DMIGACreate_eq by reflexivity.
    eexists. exists (clone_of map g (Z.max (g_dim g) (g_nsd g))). split; [reflexivity|]. split; [reflexivity|].
    split. { split; [reflexivity|]. split; [exact HD|]. split; [|split; discriminate]. cbn [g_size g_dof g_nodes clone_of]. eapply world_with_dof; [eauto|lia]. }
    repeat split.
Qed.
Print Assumptions C115_derived.

Example ex_made : exists d, made d /\ d_setup d = true /\ d_bs d = 2 /\ d_cdim d = 1 /\ d_mattype d = Some MATBAIJ /\
  d_vectype d = Some "cuda"%string.
Proof.
  exists (DMSetVecType (dm_of (two_iga None)) "cuda"). split.
  - apply made_vectype. apply (made_from (two_iga None)); [intros _; cbn [g_dim g_dof two_iga]; lia|reflexivity].
  - repeat split.
Qed.

(** * C116: types and names chosen by the user *)
(** Types chosen after the set-up are those of the vectors and matrices (C115_objects); *)
Theorem C116_chosen_after_setup :
  forall ok d g t, made d -> d_setup d = true -> d_iga d = Some g -> ok (Some t) = true ->
  snd (snd (DMCreateVector ok (DMSetVecType d t))) = mk_obj (Some t) (g_dof g) true /\
  snd (snd (DMCreateMatrix ok (DMSetMatType d t))) = mk_obj (Some t) (g_dof g) true.
Proof.
  intros ok d g t M HS I Hok. destruct (C115_describes d M HS) as (g' & I' & _ & _ & D & _). rewrite I in I'. injection I' as <-.
  split.
  - destruct (C115_objects ok (DMSetVecType d t) g (made_vectype d t M) HS I) as [A _]. rewrite (A t eq_refl Hok). cbn. rewrite D. reflexivity.
  - destruct (C115_objects ok (DMSetMatType d t) g (made_mattype d t M) HS I) as [_ A]. rewrite (A t eq_refl Hok). cbn. rewrite D. reflexivity.
Qed.
Print Assumptions C116_chosen_after_setup.

(** chosen before, e.g. with -dm_vec_type and DMSetFromOptions, they are lost; *)
Theorem C116_chosen_before_setup_refuted :
  exists d g t opts nodes map d', made d /\ d_setup d = false /\ d_iga d = Some g /\
    DMSetUp opts nodes map (DMSetMatType (DMSetVecType d t) t) = (Ok, d') /\
    d_vectype d' <> Some t /\ d_mattype d' <> Some t.
Proof.
  set (g := mk_iga 1 0 2 false None None None 2 two_nodes (-1)).
  exists (mk_dm (Some g) false 1 (-1) (-1) (Some VECSTANDARD) (Some MATAIJ) None), g, "cuda"%string, (ErrState, g), two_nodes, 7.
  eexists. split; [apply (made_from g); [cbn; intros K; discriminate K|reflexivity]|].
  split; [reflexivity|]. split; [reflexivity|]. split; [vm_compute; reflexivity|]. split; discriminate.
Qed.
Print Assumptions C116_chosen_before_setup_refuted.

(** a duplicate of a vector of the DM need not have its type; *)
Theorem C116_duplicate_refuted :
  exists ok d d' v w, made d /\ d_setup d = true /\ DMCreateVector ok d = (Ok, (d', v)) /\ VecDuplicate ok d' = (Ok, w) /\
    o_type w <> o_type v.
Proof.
  exists (fun _ => true), (DMSetVecType (dm_of (two_iga None)) "cuda"). do 3 eexists. split.
  - apply made_vectype. apply (made_from (two_iga None)); [intros _; cbn [g_dim g_dof two_iga]; lia|reflexivity].
  - split; [reflexivity|]. split; [reflexivity|]. split; [reflexivity|]. discriminate.
Qed.
Print Assumptions C116_duplicate_refuted.

(** a clone has neither the types nor the names of the original; *)
Theorem C116_clone_refuted :
  exists map d g e n, made d /\ d_setup d = true /\ d_iga d = Some g /\ DMClone map d = (Ok, e) /\ d_iga e = Some n /\
    g_vectype g = Some "cuda"%string /\ d_vectype d = Some "cuda"%string /\ d_vectype e <> Some "cuda"%string /\
    name_of g 0 <> None /\ name_of n 0 = None.
Proof.
  set (g := mk_iga 1 0 2 true (Some "cuda"%string) (Some MATBAIJ) (Some (fun _ => Some "velocity"%string)) 2 two_nodes 7).
  exists 8, (dm_of g), g. do 2 eexists. split; [apply (made_from g); [intros _; unfold g; cbn [g_dim g_dof]; lia|reflexivity]|].
  split; [reflexivity|]. split; [reflexivity|]. split; [vm_compute; reflexivity|]. split; [reflexivity|].
  split; [reflexivity|]. split; [reflexivity|]. split; [discriminate|]. split; [discriminate|reflexivity].
Qed.
Print Assumptions C116_clone_refuted.

(** and when a vector cannot be made the IGA keeps the type of the DM. *)
Theorem C116_failed_creation_refuted :
  exists ok d s d' v, made d /\ d_setup d = true /\ DMCreateVector ok d = (s, (d', v)) /\ s <> Ok /\ d_iga d' <> d_iga d.
Proof.
  exists (fun _ => false), (DMSetVecType (dm_of (two_iga None)) "cuba"). do 3 eexists. split.
  - apply made_vectype. apply (made_from (two_iga None)); [intros _; cbn [g_dim g_dof two_iga]; lia|reflexivity].
  - split; [reflexivity|]. split; [reflexivity|]. split; [discriminate|]. discriminate.
Qed.
Print Assumptions C116_failed_creation_refuted.
