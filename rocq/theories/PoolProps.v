(** Property theorems about reusable work storage: C49, C73, C74. *)
From Coq Require Import ZArith List Bool Lia Reals Permutation.
From Coq Require Import ZifyBool ZifyNat.
From Verif Require Import Prelude Box AxisInitModel ElemModel PoolModel.
Import ListNotations.
Open Scope Z_scope.

(** * C49 *)
(** The vectors waiting in the pool. *)
Definition pooled (s : vpool) : list Z :=
  flat_map (fun i => match vp_vwork s i with Some v => [v] | None => [] end) (zseq 0 (vp_nwork s)).
Definition handles (held : list (option Z)) : list Z := flat_map (fun h => match h with Some v => [v] | None => [] end) held.

(** Every vector ever created is in exactly one place. *)
Definition vinv (st : vpool * list (option Z)) : Prop :=
  let (s, held) := st in
  0 <= vp_nwork s <= POOL_CAP /\ 0 <= vp_created s /\
  (forall i, vp_nwork s <= i -> vp_vwork s i = None) /\
  (forall i, 0 <= i < vp_nwork s -> vp_vwork s i <> None) /\
  ~ In None held /\
  Permutation (handles held ++ pooled s ++ vp_destroyed s) (zseq 0 (vp_created s)).

Lemma flat_map_zseq_ext {A} (f g : Z -> list A) a n : (forall i, a <= i < a + n -> f i = g i) ->
  flat_map f (zseq a n) = flat_map g (zseq a n).
Proof. intros H. rewrite !flat_map_concat_map. f_equal. apply map_ext_in. intros i Hi. apply in_zseq in Hi. apply H. lia. Qed.

Lemma nodup_app_r {A} (l l' : list A) : NoDup (l ++ l') -> NoDup l'.
Proof. induction l as [|a l IH]; cbn [app]; auto. intros H. apply NoDup_cons_iff in H. apply IH. apply H. Qed.
Lemma nodup_app_l {A} (l l' : list A) : NoDup (l ++ l') -> NoDup l.
Proof. intros H. eapply nodup_app_r. eapply Permutation_NoDup; [apply Permutation_app_comm|exact H]. Qed.
Lemma handles_app l l' : handles (l ++ l') = handles l ++ handles l'.
Proof. unfold handles. apply flat_map_app. Qed.

Lemma handles_remove held : forall k v, nth_error held k = Some (Some v) ->
  Permutation (handles held) (v :: handles (remove_at k held)).
Proof.
  induction held as [|h held IH]; intros k v H; [destruct k; discriminate|].
  destruct k as [|k]; cbn [nth_error] in H.
  - injection H as ->. reflexivity.
  - cbn [remove_at handles flat_map]. fold (handles held). fold (handles (remove_at k held)).
    rewrite (IH k v H). destruct h; cbn [app]; [apply perm_swap|reflexivity].
Qed.
Lemma In_remove_at {A} (l : list A) : forall k x, In x (remove_at k l) -> In x l.
Proof. induction l as [|a l IH]; intros [|k] x H; cbn in *; auto. destruct H; eauto. Qed.

Lemma pooled_pop s v : 0 < vp_nwork s -> vp_vwork s (vp_nwork s - 1) = Some v ->
  let s' := mk_vpool (vp_nwork s - 1) (upd (vp_vwork s) (vp_nwork s - 1) None) (vp_created s) (vp_sizes s) (vp_destroyed s) (vp_lsize s) in
  pooled s = pooled s' ++ [v].
Proof.
  intros Hn Hv s'. unfold pooled at 1. replace (vp_nwork s) with ((vp_nwork s - 1) + 1) at 1 by lia.
  rewrite zseq_snoc, flat_map_app by lia. cbn [flat_map]. rewrite Z.add_0_l, Hv. cbn [app]. f_equal.
  unfold pooled. cbn [s' vp_nwork vp_vwork]. apply flat_map_zseq_ext. intros i Hi. unfold upd.
  replace (i =? vp_nwork s - 1) with false by lia. reflexivity.
Qed.

Lemma empty_pool_inv : forall fuel s held, vinv (s, held) -> Z.to_nat (vp_nwork s) = fuel ->
  let s' := empty_pool fuel s in
  vinv (s', held) /\ vp_nwork s' = 0 /\ vp_created s' = vp_created s /\ vp_sizes s' = vp_sizes s.
Proof.
  induction fuel as [|fuel IH]; intros s held Hinv Hn s'; cbn [empty_pool] in s'.
  - subst s'. split; [assumption|]. destruct Hinv as ((A & _) & _). split; [lia|]. auto.
  - destruct (Z.ltb_spec 0 (vp_nwork s)) as [Hp|]; [|lia].
    set (s1 := mk_vpool (vp_nwork s - 1) (upd (vp_vwork s) (vp_nwork s - 1) None) (vp_created s) (vp_sizes s)
                 (match vp_vwork s (vp_nwork s - 1) with Some v => v :: vp_destroyed s | None => vp_destroyed s end) (vp_lsize s)) in *.
    assert (I1 : vinv (s1, held)).
    { destruct Hinv as (A & B & C & D & E & F). unfold s1.
      destruct (vp_vwork s (vp_nwork s - 1)) as [v|] eqn:Hv; [|exfalso; apply (D (vp_nwork s - 1)); [lia|assumption]].
      repeat split; cbn [vp_nwork vp_vwork vp_created vp_destroyed]; try lia; auto.
      - intros i Hi. unfold upd. destruct (Z.eqb_spec i (vp_nwork s - 1)); auto. apply C. lia.
      - intros i Hi. unfold upd. destruct (Z.eqb_spec i (vp_nwork s - 1)); [lia|]. apply D. lia.
      - rewrite <- F. rewrite (pooled_pop s v Hp Hv). rewrite <- app_assoc. reflexivity. }
    specialize (IH s1 held I1 ltac:(cbn [s1 vp_nwork]; lia)). exact IH.
Qed.

Lemma vstep_inv st o : vinv st -> vinv (vstep st o).
Proof.
  destruct st as [s held]. intros Hinv. pose proof Hinv as Hinv0. destruct Hinv as (A & B & C & D & E & F).
  destruct o as [|k|n]; cbn [vstep].
  - unfold get_local. destruct (Z.ltb_spec 0 (vp_nwork s)) as [Hp|Hp].
    + destruct (vp_vwork s (vp_nwork s - 1)) as [v|] eqn:Hv; [|exfalso; apply (D (vp_nwork s - 1)); [lia|assumption]].
      repeat split; cbn [vp_nwork vp_vwork vp_created vp_destroyed]; try lia; auto.
      * intros i Hi. unfold upd. destruct (Z.eqb_spec i (vp_nwork s - 1)); auto. apply C. lia.
      * intros i Hi. unfold upd. destruct (Z.eqb_spec i (vp_nwork s - 1)); [lia|]. apply D. lia.
      * intros H. apply in_app_iff in H. destruct H as [H|[H|[]]]; [auto|discriminate].
      * rewrite <- F. rewrite (pooled_pop s v Hp Hv). rewrite handles_app. cbn [handles flat_map app].
        rewrite <- !app_assoc. apply Permutation_app_head. cbn [app]. apply Permutation_middle.
    + assert (N : vp_nwork s = 0) by lia.
      unfold create_local. repeat split; cbn [vp_nwork vp_vwork vp_created vp_destroyed]; try lia; auto.
      * intros H. apply in_app_iff in H. destruct H as [H|[H|[]]]; [auto|discriminate].
      * rewrite zseq_snoc by lia. rewrite <- F. rewrite handles_app. cbn [handles flat_map app]. rewrite Z.add_0_l.
        rewrite <- !app_assoc. apply Permutation_app_head. cbn [app]. 
        unfold pooled. cbn [vp_nwork vp_vwork]. rewrite app_assoc. apply Permutation_cons_append.
  - destruct (nth_error held k) as [[v|]|] eqn:Hk; auto.
    pose proof (handles_remove held k v Hk) as HR. unfold restore_local.
    destruct (Z.ltb_spec (vp_nwork s) POOL_CAP) as [Hc|Hc].
    + repeat split; cbn [vp_nwork vp_vwork vp_created vp_destroyed]; try lia; auto.
      * intros i Hi. unfold upd. destruct (Z.eqb_spec i (vp_nwork s)); [lia|]. apply C. lia.
      * intros i Hi. unfold upd. destruct (Z.eqb_spec i (vp_nwork s)); [discriminate|]. apply D. lia.
      * intros H. apply E. eapply In_remove_at; eauto.
      * rewrite <- F, HR. unfold pooled at 1. cbn [vp_nwork vp_vwork]. rewrite zseq_snoc, flat_map_app by lia.
        cbn [flat_map]. unfold upd at 2. rewrite Z.add_0_l, Z.eqb_refl. cbn [app].
        replace (flat_map _ (zseq 0 (vp_nwork s))) with (pooled s).
        -- rewrite <- !app_assoc. cbn [app]. symmetry. rewrite Permutation_middle. apply Permutation_app_head. apply Permutation_middle.
        -- unfold pooled. apply flat_map_zseq_ext. intros i Hi. unfold upd. replace (i =? vp_nwork s) with false by lia. reflexivity.
    + repeat split; cbn [vp_nwork vp_vwork vp_created vp_destroyed]; try lia; auto.
      * intros H. apply E. eapply In_remove_at; eauto.
      * rewrite <- F, HR. unfold pooled. cbn [vp_nwork vp_vwork app]. symmetry.
        rewrite Permutation_middle. apply Permutation_app_head. apply Permutation_middle.
  - unfold reset_to. destruct (empty_pool_inv (Z.to_nat (vp_nwork s)) s held Hinv0 eq_refl) as (I & _).
    destruct I as (A' & B' & C' & D' & E' & F'). repeat split; auto; apply A'.
Qed.

Lemma vrun_inv n ops : vinv (vrun n ops).
Proof.
  unfold vrun. assert (H : forall ops st, vinv st -> vinv (fold_left vstep ops st)).
  { induction ops0 as [|o ops0 IH]; intros st H; cbn [fold_left]; auto. apply IH. apply vstep_inv. assumption. }
  apply H. repeat split; cbn; try lia; auto. unfold POOL_CAP; lia.
Qed.

(** For every sequence of calls: the handles held are valid and pairwise different, none is in the pool or
    destroyed, the pool has at most 16 vectors, and no vector is lost. *)
Theorem C49_no_vector_handed_out_twice :
  forall n ops, let (s, held) := vrun n ops in
  (forall h, In h held -> exists v, h = Some v /\ 0 <= v < vp_created s /\ ~ In v (vp_destroyed s) /\
                                    forall i, 0 <= i < vp_nwork s -> vp_vwork s i <> Some v) /\
  (forall i j, (i < j < length held)%nat -> nth i held None <> nth j held None) /\
  0 <= vp_nwork s <= 16 /\
  (forall v, 0 <= v < vp_created s -> In (Some v) held \/ In v (vp_destroyed s) \/ exists i, 0 <= i < vp_nwork s /\ vp_vwork s i = Some v) /\
  NoDup (vp_destroyed s).
Proof.
  intros n ops. pose proof (vrun_inv n ops) as H. destruct (vrun n ops) as [s held].
  destruct H as (A & B & C & D & E & F).
  assert (ND : NoDup (handles held ++ pooled s ++ vp_destroyed s))
    by (eapply Permutation_NoDup; [symmetry; exact F|apply NoDup_zseq]).
  assert (IH : forall v, In (Some v) held <-> In v (handles held)).
  { intros v. unfold handles. rewrite in_flat_map. split.
    - intros Hv. exists (Some v). split; [assumption|left; reflexivity].
    - intros ([w|] & H1 & H2); cbn in H2; [destruct H2 as [->|[]]; assumption|destruct H2]. }
  assert (IP : forall v, In v (pooled s) <-> exists i, 0 <= i < vp_nwork s /\ vp_vwork s i = Some v).
  { intros v. unfold pooled. rewrite in_flat_map. split.
    - intros (i & H1 & H2). apply in_zseq in H1. destruct (vp_vwork s i) as [w|] eqn:Hw; [|destruct H2].
      destruct H2 as [->|[]]. exists i. split; [lia|assumption].
    - intros (i & H1 & H2). exists i. split; [apply in_zseq; lia|]. rewrite H2. left. reflexivity. }
  split; [|split; [|split; [|split]]].
  - intros [v|] Hh; [|contradiction]. exists v. split; [reflexivity|].
    assert (Hv : In v (handles held)) by (apply IH; assumption).
    assert (Hz : In v (zseq 0 (vp_created s))) by (eapply Permutation_in; [exact F|apply in_app_iff; left; assumption]).
    apply in_zseq in Hz. split; [lia|].
    assert (X : forall w, In w (handles held) -> ~ In w (pooled s ++ vp_destroyed s)).
    { intros w Hw1 Hw2. apply in_split in Hw1. destruct Hw1 as (l1 & l2 & E1). rewrite E1 in ND.
      rewrite <- app_assoc in ND. apply NoDup_remove_2 in ND. apply ND. apply in_app_iff. right. apply in_app_iff. right. assumption. }
    split; [intros K; apply (X v Hv); apply in_app_iff; right; assumption|].
    intros i Hi K. apply (X v Hv). apply in_app_iff. left. apply IP. exists i. auto.
  - assert (NH : NoDup held).
    { assert (K : NoDup (handles held)) by (apply nodup_app_l in ND; assumption).
      clear - K E. induction held as [|[v|] held IH]; [constructor| |exfalso; apply E; left; reflexivity].
      cbn [handles flat_map app] in K. apply NoDup_cons_iff in K. destruct K as [K1 K2]. constructor.
      - intros H. apply K1. unfold handles. apply in_flat_map. exists (Some v). split; [assumption|left; reflexivity].
      - apply IH; [intros H; apply E; right; assumption|assumption]. }
    intros i j Hij K. apply (proj1 (NoDup_nth held None) NH) in K; lia.
  - exact A.
  - intros v Hv. assert (Hz : In v (handles held ++ pooled s ++ vp_destroyed s))
      by (eapply Permutation_in; [symmetry; exact F|apply in_zseq; lia]).
    rewrite !in_app_iff in Hz. destruct Hz as [Hz|[Hz|Hz]]; [left; apply IH; assumption|right; right; apply IP; assumption|auto].
  - apply nodup_app_r in ND. apply nodup_app_r in ND. assumption.
Qed.
Print Assumptions C49_no_vector_handed_out_twice.

(** Giving back a vector and asking again returns it, unless the pool is full. *)
Theorem C49_restored_vector_is_reused :
  forall n ops k v, let (s, held) := vrun n ops in
  nth_error held k = Some (Some v) -> vp_nwork s < 16 ->
  let (s', held') := vrun n (ops ++ [VRestore k; VGet]) in
  held' = remove_at k held ++ [Some v] /\ vp_created s' = vp_created s.
Proof.
  intros n ops k v. unfold vrun. rewrite fold_left_app.
  pose proof (vrun_inv n ops) as I. unfold vrun in I.
  destruct (fold_left vstep ops (vp_init n, [])) as [s held]. destruct I as ((A & _) & _).
  cbn [fold_left vstep]. intros H Hc. rewrite H. unfold restore_local. change POOL_CAP with 16.
  replace (vp_nwork s <? 16) with true by lia. cbn [vstep]. unfold get_local. cbn [vp_nwork vp_vwork].
  replace (0 <? vp_nwork s + 1) with true by lia. replace (vp_nwork s + 1 - 1) with (vp_nwork s) by lia.
  unfold upd. rewrite ?Z.eqb_refl. split; reflexivity.
Qed.
Print Assumptions C49_restored_vector_is_reused.

Example C49_example :
  let (s, held) := vrun 10 [VGet; VGet; VGet; VRestore 1; VGet; VRestore 0; VReset 20; VGet] in
  held = [Some 2; Some 1; Some 3] /\ vp_destroyed s = [0] /\ vp_created s = 4.
Proof. vm_compute. repeat split. Qed.

(** * C73: do vectors handed out have the local size of the current layout? *)
Definition no_reset_while_held (ops : list vop) : Prop :=
  forall l1 n l2, ops = l1 ++ VReset n :: l2 -> forall n0, snd (vrun n0 l1) = [].

Definition sized (st : vpool * list (option Z)) : Prop :=
  let (s, held) := st in
  forall v, (In (Some v) held \/ exists i, 0 <= i < vp_nwork s /\ vp_vwork s i = Some v) -> vp_sizes s v = vp_lsize s.

Lemma empty_pool_lsize : forall fuel s, vp_lsize (empty_pool fuel s) = vp_lsize s.
Proof. induction fuel as [|f IH]; intros s; cbn [empty_pool]; auto. destruct (0 <? vp_nwork s); auto. rewrite IH. reflexivity. Qed.

Lemma vstep_sized st o : vinv st -> sized st -> (forall n, o = VReset n -> snd st = []) -> sized (vstep st o).
Proof.
  destruct st as [s held]. intros I H Hr. pose proof I as (A & B & C & D & E & F).
  destruct o as [|k|n]; cbn [vstep].
  - unfold get_local. destruct (Z.ltb_spec 0 (vp_nwork s)) as [Hp|Hp].
    + intros v Hv. cbn [vp_sizes vp_lsize vp_nwork vp_vwork] in *. apply H. destruct Hv as [Hv|(i & Hi & Hv)].
      * apply in_app_iff in Hv. destruct Hv as [Hv|[Hv|[]]]; [left; assumption|right].
        exists (vp_nwork s - 1). split; [lia|assumption].
      * unfold upd in Hv. destruct (Z.eqb_spec i (vp_nwork s - 1)); [discriminate|]. right. exists i. split; [lia|assumption].
    + unfold create_local. intros v Hv. cbn [vp_sizes vp_lsize vp_nwork vp_vwork] in *. unfold upd.
      destruct (Z.eqb_spec v (vp_created s)); auto. apply H. destruct Hv as [Hv|(i & Hi & Hv)]; [|lia].
      apply in_app_iff in Hv. destruct Hv as [Hv|[Hv|[]]]; [left; assumption|]. injection Hv as Hv. congruence.
  - destruct (nth_error held k) as [[w|]|] eqn:Hk; auto.
    unfold restore_local. destruct (vp_nwork s <? POOL_CAP); intros v Hv; cbn [vp_sizes vp_lsize vp_nwork vp_vwork] in *; apply H.
    + destruct Hv as [Hv|(i & Hi & Hv)]; [left; eapply In_remove_at; eauto|].
      unfold upd in Hv. destruct (Z.eqb_spec i (vp_nwork s)).
      * injection Hv as <-. left. eapply nth_error_In; eauto.
      * right. exists i. split; [lia|assumption].
    + destruct Hv as [Hv|Hv]; [left; eapply In_remove_at; eauto|right; assumption].
  - specialize (Hr n eq_refl). cbn [snd] in Hr. subst held.
    unfold reset_to. destruct (empty_pool_inv (Z.to_nat (vp_nwork s)) s [] I eq_refl) as (_ & N & _).
    intros v [[]|(i & Hi & _)]. cbn [vp_nwork] in Hi. lia.
Qed.

Theorem C73_handed_out_size_partial :
  forall n ops, no_reset_while_held ops ->
  let (s, held) := vrun n ops in forall v, In (Some v) held -> vp_sizes s v = vp_lsize s.
Proof.
  intros n ops Hno.
  assert (K : forall l2 l1, ops = l1 ++ l2 -> sized (vrun n l1) -> sized (vrun n (l1 ++ l2))).
  { induction l2 as [|o l2 IH]; intros l1 E H; [rewrite app_nil_r; assumption|].
    replace (l1 ++ o :: l2) with ((l1 ++ [o]) ++ l2) by (rewrite <- app_assoc; reflexivity).
    apply IH; [rewrite <- app_assoc; assumption|].
    unfold vrun. rewrite fold_left_app. cbn [fold_left]. apply vstep_sized; [apply vrun_inv|exact H|].
    intros m ->. apply (Hno l1 m l2 E n). }
  specialize (K ops [] eq_refl). cbn [app] in K.
  assert (H0 : sized (vrun n [])) by (intros v [[]|(i & Hi & _)]; cbn in Hi; lia).
  specialize (K H0). destruct (vrun n ops) as [s held]. intros v Hv. apply K. left. assumption.
Qed.
Print Assumptions C73_handed_out_size_partial.

(** A vector held during IGAReset and given back afterwards is handed out again although it has the old size. *)
Theorem C73_handed_out_size_refuted :
  exists n ops, let (s, held) := vrun n (ops ++ [VGet]) in
  exists v, last held None = Some v /\ vp_sizes s v <> vp_lsize s.
Proof. exists 10, [VGet; VReset 20; VRestore 0]. vm_compute. exists 0. split; [reflexivity|discriminate]. Qed.
Print Assumptions C73_handed_out_size_refuted.

Example C73_example :
  no_reset_while_held [VGet; VGet; VRestore 0; VRestore 0; VReset 20; VGet] /\
  (let (s, held) := vrun 10 [VGet; VGet; VRestore 0; VRestore 0; VReset 20; VGet] in held = [Some 2] /\ vp_sizes s 2 = 20).
Proof.
  split; [|vm_compute; split; reflexivity].
  intros l1 n l2 E n0.
  do 4 (destruct l1 as [|? l1]; cbn [app] in E; [discriminate|]; injection E as ? E; subst).
  destruct l1 as [|? l1]; cbn [app] in E; [reflexivity|]. injection E as ? E.
  destruct l1 as [|? l1]; cbn [app] in E; [discriminate|]. injection E as ? E. destruct l1; discriminate.
Qed.

(** * C74: work arrays of element and point loops *)
(** Calls a user program makes between two steps of the loop. *)
Inductive wop :=
| OVec | OMat                                          (* IGAElementGetWorkVec / GetWorkMat *)
| OVal (mapping : list Z) (arrayU : option (Z -> R))   (* IGAElementGetValues *)
| OStore (k : wkind) (slot i : Z) (x : R).             (* a store into an array it holds *)
Section WorkRun.
  Variables neq nen dof : Z.
  Definition wstep (st : wpool * list (wkind * Z)) (o : wop) : wpool * list (wkind * Z) :=
    let (w, held) := st in
    let take k r := match r with (_, Some s, w) => (w, held ++ [(k, s)]) | (_, None, w) => (w, held) end in
    match o with
    | OVec => take WVec (get_work_vec neq nen dof w)
    | OMat => take WMat (get_work_mat neq nen dof w)
    | OVal m u => take WVal (get_work_values neq nen dof m u w)
    | OStore k s i x => (store k s i x w, held)
    end.
  (** From the start of an iteration (IGANextElement or IGAElementNextPoint returned true with this index). *)
  Definition wrun (index : Z) (w0 : wpool) (ops : list wop) : wpool * list (wkind * Z) :=
    fold_left wstep ops (next_work index w0, []).

  Definition winv (index : Z) (st : wpool * list (wkind * Z)) : Prop :=
    let (w, held) := st in
    wk_index w = index /\ NoDup held /\
    forall k, 0 <= wk_next w k <= wcap k /\ (forall s, In (k, s) held <-> 0 <= s < wk_next w k) /\
              Z.of_nat (length (filter (fun p => wkind_eqb k (fst p)) held)) = wk_next w k.

  Lemma wkind_eqb_spec a b : wkind_eqb a b = true <-> a = b.
  Proof. destruct a, b; cbn; split; congruence. Qed.
  Lemma wkind_eqb_refl a : wkind_eqb a a = true.
  Proof. destruct a; reflexivity. Qed.

  Lemma get_work_inv index k val w held : winv index (w, held) ->
    winv index (match get_work neq nen dof k val w with (_, Some s, w') => (w', held ++ [(k, s)]) | (_, None, w') => (w', held) end).
  Proof.
    intros (A & ND & B). unfold get_work. destruct (wk_index w <? 0); [exact (conj A (conj ND B))|].
    destruct (Z.leb_spec (wcap k) (wk_next w k)) as [Hc|Hc]; [exact (conj A (conj ND B))|].
    split; [exact A|]. split.
    - apply (Permutation_NoDup (Permutation_cons_append held (k, wk_next w k))). constructor; [|assumption].
      intros H. apply (proj1 (proj2 (B k))) in H. lia.
    - intros k'. cbn [wk_next]. destruct (B k') as (B1 & B2 & B3). destruct (wkind_eqb k k') eqn:Ek.
      + apply wkind_eqb_spec in Ek. subst k'. split; [lia|]. split.
        * intros s. rewrite in_app_iff, B2. cbn [In]. split; [intros [H|[H|[]]]; [lia|injection H as <-; lia]|].
          intros H. destruct (Z.eq_dec s (wk_next w k)) as [->|]; [right; left; reflexivity|left; lia].
        * rewrite filter_app, app_length. cbn [filter fst]. rewrite wkind_eqb_refl. cbn [length]. lia.
      + split; [exact B1|]. split.
        * intros s. rewrite in_app_iff, B2. cbn [In]. split; [intros [H|[H|[]]]; [lia|injection H as <- _; rewrite wkind_eqb_refl in Ek; discriminate]|].
          intros H. left. exact H.
        * rewrite filter_app, app_length. cbn [filter fst]. replace (wkind_eqb k' k) with false; [cbn [length]; lia|].
          destruct k, k'; cbn in *; congruence.
  Qed.
  Lemma wstep_inv index st o : winv index st -> winv index (wstep st o).
  Proof.
    destruct st as [w held]. intros H. destruct o as [| |m u|k s i x]; cbn [wstep]; try apply get_work_inv; auto.
  Qed.
  Lemma wrun_inv index w0 ops : winv index (wrun index w0 ops).
  Proof.
    unfold wrun. assert (H : forall ops st, winv index st -> winv index (fold_left wstep ops st)).
    { induction ops0 as [|o ops0 IH]; intros st H; cbn [fold_left]; auto. apply IH. apply wstep_inv. assumption. }
    apply H. split; [reflexivity|]. split; [constructor|]. intros k. cbn. destruct k; cbn; (split; [lia|]); (split; [intros s; split; [intros []|lia]|reflexivity]).
  Qed.
End WorkRun.

(** Within an iteration, whatever is called: arrays handed out are pairwise distinct blocks, and a request fails
    exactly when 8 vectors, 8 value arrays or 4 matrices are already out. *)
Theorem C74_arrays_distinct :
  forall neq nen dof index w0 ops, 0 <= index ->
  let (w, held) := wrun neq nen dof index w0 ops in
  NoDup held /\
  (forall k val, fst (fst (get_work neq nen dof k val w)) =
     if Z.of_nat (length (filter (fun p => wkind_eqb k (fst p)) held)) <? match k with WMat => 4 | _ => 8 end then Ok else ErrRange).
Proof.
  intros neq nen dof index w0 ops Hi. pose proof (wrun_inv neq nen dof index w0 ops) as H.
  destruct (wrun neq nen dof index w0 ops) as [w held]. destruct H as (A & B & C). split; [exact B|].
  intros k val. destruct (C k) as (C1 & C2 & C3). rewrite C3. unfold get_work. replace (wk_index w <? 0) with false by lia.
  replace (match k with WMat => 4 | _ => 8 end) with (wcap k) by (destruct k; reflexivity).
  destruct (Z.leb_spec (wcap k) (wk_next w k)); destruct (Z.ltb_spec (wk_next w k) (wcap k)); try lia; reflexivity.
Qed.
Print Assumptions C74_arrays_distinct.

(** A vector or matrix handed out is zero, the value array holds the nodal values of the element, all accesses stay
    inside the allocation, and no array handed out before changes. *)
Theorem C74_arrays_initialised :
  forall neq nen dof index w0 ops, 0 <= index -> 0 <= neq <= nen -> 0 <= dof ->
  let (w, held) := wrun neq nen dof index w0 ops in
  (forall s w', get_work_vec neq nen dof w = (Ok, Some s, w') ->
     ~ In (WVec, s) held /\ neq*dof <= nen*dof /\ (forall i, 0 <= i < neq*dof -> wk_mem w' WVec s i = 0%R) /\
     (forall k s' i, In (k, s') held -> wk_mem w' k s' i = wk_mem w k s' i)) /\
  (forall s w', get_work_mat neq nen dof w = (Ok, Some s, w') ->
     ~ In (WMat, s) held /\ (neq*dof)*(nen*dof) <= (nen*dof)*(nen*dof) /\
     (forall i, 0 <= i < (neq*dof)*(nen*dof) -> wk_mem w' WMat s i = 0%R) /\
     (forall k s' i, In (k, s') held -> wk_mem w' k s' i = wk_mem w k s' i)) /\
  (forall s w' mapping u, Z.of_nat (length mapping) = nen -> get_work_values neq nen dof mapping u w = (Ok, Some s, w') ->
     ~ In (WVal, s) held /\
     (forall a c, 0 <= a < nen -> 0 <= c < dof ->
        wk_mem w' WVal s (a*dof + c) = match u with Some u => u (nth (Z.to_nat a) mapping 0 * dof + c) | None => 0%R end) /\
     (forall k s' i, In (k, s') held -> wk_mem w' k s' i = wk_mem w k s' i)).
Proof.
  intros neq nen dof index w0 ops Hi Hn Hd. pose proof (wrun_inv neq nen dof index w0 ops) as H.
  destruct (wrun neq nen dof index w0 ops) as [w held]. destruct H as (A & B & C).
  assert (G : forall k val s w', get_work neq nen dof k val w = (Ok, Some s, w') ->
     ~ In (k, s) held /\ (forall i, 0 <= i < wk_len neq nen dof k -> wk_mem w' k s i = val i) /\
     (forall k' s' i, In (k', s') held -> wk_mem w' k' s' i = wk_mem w k' s' i)).
  { intros k val s w' E. unfold get_work in E. destruct (wk_index w <? 0); [discriminate|]. destruct (wcap k <=? wk_next w k); [discriminate|].
    injection E as <- <-. destruct (C k) as (C1 & C2 & C3).
    assert (Hs : ~ In (k, wk_next w k) held) by (intros K; apply C2 in K; lia).
    split; [exact Hs|]. split.
    - intros i Hi'. cbn [wk_mem]. unfold fill. rewrite wkind_eqb_refl, Z.eqb_refl.
      replace (0 <=? i) with true by lia. replace (i <? wk_len neq nen dof k) with true by lia. reflexivity.
    - intros k' s' i K. cbn [wk_mem]. unfold fill. destruct (wkind_eqb k k') eqn:Ek; [|reflexivity].
      apply wkind_eqb_spec in Ek. subst k'. destruct (Z.eqb_spec s' (wk_next w k)) as [->|]; [contradiction|reflexivity]. }
  assert (P1 : neq*dof <= nen*dof) by (apply Z.mul_le_mono_nonneg_r; lia).
  assert (P0 : 0 <= nen*dof) by (apply Z.mul_nonneg_nonneg; lia).
  split; [|split].
  - intros s w' E. destruct (G _ _ _ _ E) as (G1 & G2 & G3). repeat (split; [assumption|]). exact G3.
  - intros s w' E. destruct (G _ _ _ _ E) as (G1 & G2 & G3). split; [assumption|].
    split; [apply Z.mul_le_mono_nonneg_r; lia|]. split; assumption.
  - intros s w' mapping u Hm E. destruct (G _ _ _ _ E) as (G1 & G2 & G3). split; [assumption|]. split; [|assumption].
    intros a c Ha Hc. assert (Hp : 0 <= a*dof + c < nen*dof) by nia.
    rewrite G2 by exact Hp. clear G G1 G2 G3 E B C P1. unfold value_list. destruct u as [u|].
    + unfold get_values. rewrite Z2Nat.inj_add, Z2Nat.inj_mul by nia.
      rewrite nth_flat_map_const with (da := 0).
      * rewrite nth_indep with (d' := (fun i => u (nth (Z.to_nat a) mapping 0 * dof + i)) 0) by (rewrite map_length, length_zseq; lia).
        rewrite (map_nth (fun i => u (nth (Z.to_nat a) mapping 0 * dof + i))). rewrite nth_zseq by lia. f_equal. lia.
      * intros m _. rewrite map_length, length_zseq. reflexivity.
      * lia.
      * lia.
    + rewrite (map_nth (fun _ => 0%R) (zseq 0 (nen*dof)) 0). reflexivity.
Qed.
Print Assumptions C74_arrays_initialised.

(** Outside a loop nothing is handed out, and after the next step of the loop everything is available again. *)
Theorem C74_lifetime :
  forall neq nen dof k val w, (wk_index w < 0 -> fst (fst (get_work neq nen dof k val w)) = ErrState) /\
  (forall index, 0 <= index -> fst (fst (get_work neq nen dof k val (next_work index w))) = Ok).
Proof.
  intros neq nen dof k val w. split.
  - intros H. unfold get_work. replace (wk_index w <? 0) with true by lia. reflexivity.
  - intros index H. unfold get_work, next_work. cbn [wk_index wk_next]. replace (index <? 0) with false by lia.
    destruct k; reflexivity.
Qed.
Print Assumptions C74_lifetime.

Example C74_example :
  let w0 := mk_wpool (-1) (fun _ => 7) (fun _ _ _ => 5%R) in
  snd (wrun 2 3 1 0 w0 [OMat; OVec; OStore WVec 0 0 9%R; OVec; OVal [4;5;6] None; OMat]) = [(WMat, 0); (WVec, 0); (WVec, 1); (WVal, 0); (WMat, 1)] /\
  length (snd (wrun 2 3 1 0 w0 [OMat; OMat; OMat; OMat; OMat])) = 4%nat.
Proof. vm_compute. split; reflexivity. Qed.
