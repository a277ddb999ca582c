(** C126: the near null space that -iga_set_bddc_minimal sets. *)
From Coq Require Import ZArith List Bool Reals Lia Lra.
From Verif Require Import Prelude AxisInitModel AxisInitProofs GridSpec GridProofs GsModel GsSpec GsProofs.
Import ListNotations.
Open Scope Z_scope.

Lemma countv_wanted : forall mask cnst size nnsp nv vol, 0 <= size -> 0 <= nv ->
  countv (wanted mask cnst size nnsp nv vol) = size + (if cnst then 1 else 0) + nv.
Proof.
  intros. unfold countv, wanted. rewrite !app_length, !map_length, !length_zseq. destruct cnst; cbn [length]; lia.
Qed.

Lemma nth_map_zseq : forall (f : Z -> Z -> R) n j d, 0 <= j < n -> nth (Z.to_nat j) (map f (zseq 0 n)) d = f j.
Proof.
  intros. rewrite (nth_indep _ d (f 0)) by (rewrite map_length, length_zseq; lia). rewrite map_nth.
  rewrite nth_zseq by lia. f_equal. lia.
Qed.

Lemma nthv_wanted : forall mask (cnst : bool) size nnsp nv vol j, 0 <= size -> 0 <= nv ->
  let s := if cnst then 1 else 0 in 0 <= j < size + s + nv ->
  nthv (wanted mask cnst size nnsp nv vol) j =
  if j <? s then mask else if j <? s + size then (fun t => (nnsp (j - s)%Z t * mask t)%R) else nnsp (vol (j - s - size)).
Proof.
  intros mask cnst size nnsp nv vol j Hs Hn s Hj. unfold nthv, wanted.
  assert (Hl : length (if cnst then [mask] else []) = Z.to_nat s) by (unfold s; destruct cnst; reflexivity).
  destruct (Z.ltb_spec j s) as [H|H].
  - unfold s in *. destruct cnst; [|lia]. replace j with 0 by lia. reflexivity.
  - assert (0 <= s) by (unfold s; destruct cnst; lia).
    rewrite app_nth2 by (rewrite Hl; lia). rewrite Hl. replace (Z.to_nat j - Z.to_nat s)%nat with (Z.to_nat (j - s)) by lia.
    destruct (Z.ltb_spec j (s + size)).
    + rewrite app_nth1 by (rewrite map_length, length_zseq; lia). apply (nth_map_zseq (fun i t => nnsp i t * mask t)%R). lia.
    + rewrite app_nth2 by (rewrite map_length, length_zseq; lia). rewrite map_length, length_zseq.
      replace (Z.to_nat (j - s) - Z.to_nat size)%nat with (Z.to_nat (j - s - size)) by lia. apply (nth_map_zseq (fun i => nnsp (vol i))). lia.
Qed.

Lemma near_vectors_ok : forall mask cnst size nnsp nv vol, 0 <= size -> 0 <= nv ->
  (forall i, 0 <= i < nv -> 0 <= vol i < size) ->
  exists v, near_vectors mask cnst size nnsp nv vol = (Ok, v) /\
    forall j, 0 <= j < countv (wanted mask cnst size nnsp nv vol) -> v j = nthv (wanted mask cnst size nnsp nv vol) j.
Proof.
  intros mask cnst size nnsp nv vol Hs Hn Hv. unfold near_vectors.
  match goal with |- context [fold_left _ (zseq 0 nv) (Ok, ?v0)] =>
    destruct (near_vol (if cnst then 1 else 0) size nnsp vol v0 nv Hn Hv) as [v [E Hj]] end.
  exists v. split; [exact E|]. intros j Hjn. rewrite countv_wanted in Hjn by auto. rewrite nthv_wanted by auto.
  rewrite Hj, near_mid by auto.
  set (s := if cnst then 1 else 0) in *. assert (Hs0 : 0 <= s) by (unfold s; destruct cnst; lia).
  destruct (Z.leb_spec (s + size) j), (Z.ltb_spec j (s + size + nv)), (Z.ltb_spec j s), (Z.leb_spec s j), (Z.ltb_spec j (s + size));
    cbn [andb]; try lia; try reflexivity.
  unfold s in *. destruct cnst; [|lia]. replace j with 0 by lia. rewrite upd_same. reflexivity.
Qed.

Lemma in_span_eq : forall N k w w' x, (forall j, 0 <= j < k -> w j = w' j) -> in_span N k w x -> in_span N k w' x.
Proof. intros N k w w' x H. apply in_span_same. intros j Hj t _. rewrite H by auto. reflexivity. Qed.

Section Theorems.
  Variables (N : Z) (heap : Z -> R) (mask : Z -> R) (cnst : bool) (size : Z) (nnsp : Z -> Z -> R) (nv : Z) (vol : Z -> Z).
  Hypothesis Hs : 0 <= size.
  Hypothesis Hn : 0 <= nv.
  Hypothesis Hv : forall i, 0 <= i < Z.min nv size -> 0 <= vol i < size.
  Let W := wanted mask cnst size nnsp (Z.min nv size) vol.
  Let res := minimal_space N heap mask (Some (cnst, size, nnsp)) nv vol.

  Lemma minimal_ok : exists v u, res = (Ok, (countv W, u)) /\ inv N v (countv W) u /\
    forall j, 0 <= j < countv W -> v j = nthv W j.
  Proof using Hs Hn Hv.
    assert (Hm : 0 <= Z.min nv size) by lia.
    destruct (near_vectors_ok mask cnst size nnsp (Z.min nv size) vol Hs Hm Hv) as [v [E Hj]].
    exists v, (OrthonormalizeVecs_Private N heap (countv W) v). split; [|split; [|exact Hj]].
    - unfold res, minimal_space. rewrite E. unfold W. rewrite countv_wanted by auto. reflexivity.
    - apply gs_inv. unfold countv. lia.
  Qed.

  (** The vectors that are set span what is wanted. *)
Theorem C126_span : exists u, res = (Ok, (countv W, u)) /\ same_span N (countv W) (countv W) u (nthv W).
  Proof using Hs Hn Hv.
    destruct minimal_ok as (v & u & E & I & Hj). exists u. split; auto. intros x.
    assert (Hc : 0 <= countv W) by (unfold countv; lia).
    transitivity (in_span N (countv W) v x); [exact (inv_span N v (countv W) u Hc I x)|].
    split; apply in_span_eq; intros; [|symmetry]; auto.
  Qed.

  (** They are orthonormal where the wanted ones are independent. *)
Theorem C126_orthonormal : independent N (countv W) (nthv W) ->
    exists u, res = (Ok, (countv W, u)) /\ orthonormal N (countv W) u.
  Proof using Hs Hn Hv.
    intros HI. destruct minimal_ok as (v & u & E & I & Hj). exists u. split; auto. intros i j Hi Hj'.
    destruct (Z.eqb_spec i j) as [->|Ne]; [|apply (inv_orth N v _ u I); auto].
    destruct (inv_unit N v _ u I j Hj') as [[X _]|[_ X]]; auto. exfalso. apply (HI j Hj').
    rewrite <- Hj by auto. revert X. apply in_span_eq. intros. apply Hj. lia.
  Qed.

  (** In general every vector is orthogonal to the others; it is null when the wanted one depends on the ones before it,
      and of norm 1 otherwise. *)
Theorem C126_dependent : exists u, res = (Ok, (countv W, u)) /\
    (forall i j, 0 <= i < countv W -> 0 <= j < countv W -> i <> j -> inner N (u i) (u j) = 0%R) /\
    (forall i, 0 <= i < countv W -> in_span N i (nthv W) (nthv W i) -> null N (u i)) /\
    (forall i, 0 <= i < countv W -> ~ in_span N i (nthv W) (nthv W i) -> inner N (u i) (u i) = 1%R).
  Proof using Hs Hn Hv.
    destruct minimal_ok as (v & u & E & I & Hj). exists u. split; auto. split; [apply (inv_orth N v _ u I)|].
    assert (T : forall i, 0 <= i < countv W -> in_span N i v (v i) <-> in_span N i (nthv W) (nthv W i)).
    { intros i Hi. rewrite Hj by auto. split; apply in_span_eq; intros; [|symmetry]; apply Hj; lia. }
    split; intros i Hi H; rewrite <- T in H by auto; destruct (inv_unit N v _ u I i Hi) as [[X Y]|[X Y]]; tauto.
  Qed.

  (** The i-th vector only depends on the first i wanted ones. *)
Theorem C126_nested : exists u, res = (Ok, (countv W, u)) /\
    forall k, 0 <= k <= countv W -> same_span N k k u (nthv W).
  Proof using Hs Hn Hv.
    destruct minimal_ok as (v & u & E & I & Hj). exists u. split; auto. intros k Hk x.
    transitivity (in_span N k v x).
    - split; apply in_span_trans; intros j Hj'; apply in_span_mono with (k := j + 1); try lia.
      + apply (inv_to N v _ u I). lia.
      + apply (inv_from N v _ u I). lia.
    - split; apply in_span_eq; intros; [|symmetry]; apply Hj; lia.
  Qed.
End Theorems.
Print Assumptions C126_span.
Print Assumptions C126_orthonormal.
Print Assumptions C126_dependent.
Print Assumptions C126_nested.

(** A number that names no vector is an error, and nothing is set. *)
Theorem C126_invalid : forall N heap mask cnst size nnsp nv vol i,
  0 <= i < nv -> i < size -> ~ 0 <= vol i < size ->
  fst (minimal_space N heap mask (Some (cnst, size, nnsp)) nv vol) = ErrArg.
Proof.
  intros N heap mask cnst size nnsp nv vol i Hi Hi' Hb. unfold minimal_space, near_vectors.
  match goal with |- context [fold_left ?f (zseq 0 (Z.min nv size)) (Ok, ?v0)] =>
    pose proof (near_bad (if cnst then 1 else 0) size nnsp vol v0 (Z.min nv size) i ltac:(lia) Hb) as H;
    change (fold_left (vol_step (if cnst then 1 else 0) size nnsp vol) (zseq 0 (Z.min nv size)) (Ok, v0))
      with (fold_left f (zseq 0 (Z.min nv size)) (Ok, v0)) in H;
    destruct (fold_left f (zseq 0 (Z.min nv size)) (Ok, v0)) as [e v] end.
  cbn [fst] in H. subst e. reflexivity.
Qed.
Print Assumptions C126_invalid.

(** Without a near null space the only vector is the mask over its norm. *)
Theorem C126_constants : forall N heap mask nv vol, 0 <= nv -> ~ null N mask ->
  exists u, minimal_space N heap mask None nv vol = (Ok, (1, u)) /\ inner N (u 0) (u 0) = 1%R /\
    exists c, forall t, 0 <= t < N -> mask t = (c * u 0%Z t)%R.
Proof.
  intros N heap mask nv vol Hnv Hm.
  destruct (minimal_ok N heap mask true 0 (fun _ _ => 0%R) nv vol ltac:(lia) Hnv ltac:(intros; lia)) as (v & u & E & I & Hj).
  assert (Hc : countv (wanted mask true 0 (fun _ _ => 0%R) (Z.min nv 0) vol) = 1) by (rewrite countv_wanted; lia).
  rewrite Hc in *.
  exists u. split; [exact E|]. assert (v 0 = mask) by (rewrite Hj by lia; reflexivity). split.
  - destruct (inv_unit N v _ u I 0 ltac:(lia)) as [[X _]|[_ [c X]]]; auto. exfalso. apply Hm. intros t Ht.
    rewrite <- H, X by auto. reflexivity.
  - destruct (inv_from N v _ u I 0 ltac:(lia)) as [c X]. exists (c 0). intros t Ht. rewrite <- H, X by auto.
    change (zseq 0 (0 + 1)) with [0]. unfold rsum. cbn [map fold_right]. ring.
Qed.
Print Assumptions C126_constants.

Ltac ev H := unfold rsum, nthv, wanted in H; try change (zseq 0 0) with (@nil Z) in H; try change (zseq 0 1) with [0] in H;
  try change (zseq 0 2) with [0; 1] in H;
  cbv beta iota delta [map app nth fold_right Z.to_nat Pos.to_nat Pos.iter_op Nat.add Z.eqb Pos.eqb Z.add Pos.add] in H.

(** Choosing a vector twice puts a null vector into the near null space, which PETSc wants orthonormal. *)
Theorem C126_orthonormal_refuted : exists N mask nnsp vol, (forall i, 0 <= i < 2 -> 0 <= vol i < 2) /\
  independent N 3 (nthv (wanted mask false 2 nnsp 1 vol)) /\
  forall heap, exists u, minimal_space N heap mask (Some (false, 2, nnsp)) 2 vol = (Ok, (4, u)) /\
    ~ orthonormal N 4 u /\ null N (u 3).
Proof.
  exists 3, (fun t => if t =? 2 then 0%R else 1%R), (fun i t => if i =? 0 then 1%R else IZR t), (fun _ => 0).
  split; [intros; lia|]. split.
  - intros i Hi [c Hc]. pose proof (Hc 0 ltac:(lia)) as H0. pose proof (Hc 1 ltac:(lia)) as H1. pose proof (Hc 2 ltac:(lia)) as H2.
    assert (i = 0 \/ i = 1 \/ i = 2) as [ -> | [ -> | -> ] ] by lia; ev H0; ev H1; ev H2; lra.
  - intros heap.
    destruct (C126_dependent 3 heap (fun t => if t =? 2 then 0%R else 1%R) false 2 (fun i t => if i =? 0 then 1%R else IZR t) 2 (fun _ => 0)
      ltac:(lia) ltac:(lia) ltac:(intros; lia)) as (u & E & _ & Hnull & _).
    assert (Hc : countv (wanted (fun t => if t =? 2 then 0%R else 1%R) false 2 (fun i t => if i =? 0 then 1%R else IZR t) (Z.min 2 2) (fun _ => 0)) = 4)
      by (rewrite countv_wanted; lia).
    rewrite Hc in *. exists u. split; [exact E|].
    assert (X : null 3 (u 3)).
    { apply Hnull; [lia|].
      exists (fun j => if j =? 2 then 1%R else 0%R). intros t Ht. change (Z.min 2 2) with 2.
      match goal with |- ?G => set (K := G) end. change (zseq 0 3) with [0; 1; 2] in K. ev K. unfold K. ring. }
    split; auto. intros O. specialize (O 3 3 ltac:(lia) ltac:(lia)). rewrite null_inner in O by auto. ev O. lra.
Qed.
Print Assumptions C126_orthonormal_refuted.

(** A near null space with the constants and one more vector, on three entries of which two are in the mask. *)
Example C126_case : let mask := fun t => if t =? 1 then 0%R else 1%R in let nnsp := fun (_ t : Z) => IZR (t + 1) in
  independent 3 2 (nthv (wanted mask true 1 nnsp 0 (fun _ => 0))).
Proof.
  intros mask nnsp i Hi [c Hc]. assert (i = 0 \/ i = 1) as [ -> | -> ] by lia.
  - specialize (Hc 0 ltac:(lia)). unfold mask in Hc. ev Hc. lra.
  - pose proof (Hc 0 ltac:(lia)) as H0. pose proof (Hc 2 ltac:(lia)) as H2. unfold mask, nnsp in *.
    ev H0. ev H2. lra.
Qed.
