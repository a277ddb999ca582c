(** Proofs about the assembly drivers. *)
From Coq Require Import ZArith List Bool Lia Reals Lra Permutation FunctionalExtensionality.
From Coq Require Import ZifyBool ZifyNat.
From Verif Require Import Prelude AxisModel AxisSpec AxisInitModel PartModel PartSpec PartProofs SetupModel SetupProofs SetupProps
  Box GridModel GridSpec GridProofs GridProofs2 GridSetup GridProps ElemModel ElemSpec ElemProofs AsmProofs ElemProps
  BCModel BCSpec BCProofs BCProofs2 BCProps DrvModel DrvSpec.
Import ListNotations.
Open Scope Z_scope.

(** * Loops *)
Lemma next_element_b e : el_bid e = -1 -> el_atb e = false ->
  el_bid (snd (next_element e)) = -1 /\ el_atb (snd (next_element e)) = false /\
  el_dim (snd (next_element e)) = el_dim e /\ el_sizes (snd (next_element e)) = el_sizes e.
Proof. intros H1 H2. unfold next_element. destruct (el_count e <=? el_index e + 1); cbn; auto. Qed.

Lemma zseq_two n : 0 <= n -> zseq 0 (2 * (n + 1)) = zseq 0 (2 * n) ++ [2*n; 2*n+1].
Proof.
  intros H. replace (2 * (n+1)) with (2*n + 2) by lia. rewrite zseq_app by lia. rewrite Z.add_0_l. f_equal.
  rewrite (zseq_cons (2*n) 2) by lia. change (2-1) with 1. rewrite (zseq_cons (2*n+1) 1) by lia. reflexivity.
Qed.

Lemma map_filter_ext A B (g g' : A -> B) (p p' : A -> bool) l : (forall x, In x l -> p x = p' x) -> (forall x, In x l -> g x = g' x) ->
  map g (filter p l) = map g' (filter p' l).
Proof.
  induction l as [|x l IH]; intros H1 H2; cbn [filter map]; auto. rewrite (H1 x) by (left; auto).
  destruct (p' x); cbn [map]; rewrite IH by (intros; auto with datatypes); [rewrite (H2 x) by (left; auto)|]; reflexivity.
Qed.

Lemma faces_order (P : Z -> Z -> bool) n : 0 <= n ->
  map visit_of (filter (fun b => P (Z.quot b 2) (Z.rem b 2)) (zseq 0 (2 * n))) =
  map (fun f => Face (fst f) (snd f)) (filter (fun f => P (fst f) (snd f)) (faces n)).
Proof.
  intros H. pattern n. apply natlike_ind; [reflexivity| |exact H]. clear n H. intros n H IH.
  replace (Z.succ n) with (n + 1) by lia. rewrite zseq_two by auto. unfold faces. rewrite (zseq_snoc 0 n) by auto.
  rewrite flat_map_app. rewrite !filter_app, !map_app. rewrite IH. f_equal.
  cbn [flat_map app]. rewrite Z.add_0_l. cbn [filter fst snd].
  assert (E1 : Z.quot (2*n) 2 = n) by (rewrite Z.quot_div_nonneg by lia; lia).
  assert (E2 : Z.quot (2*n+1) 2 = n) by (rewrite Z.quot_div_nonneg by lia; lia).
  assert (E3 : Z.rem (2*n) 2 = 0) by (rewrite Z.rem_mod_nonneg by lia; lia).
  assert (E4 : Z.rem (2*n+1) 2 = 1) by (rewrite Z.rem_mod_nonneg by lia; lia).
  rewrite E1, E2, E3, E4. unfold visit_of.
  destruct (P n 0), (P n 1); cbn [map fst snd]; rewrite ?E1, ?E2, ?E3, ?E4; reflexivity.
Qed.

(** The form loop from an iterator state at rest. *)
Lemma form_loop_rest visit e : 0 <= el_dim e <= 3 -> el_bid e = -1 -> el_atb e = false ->
  form_loop (Z.to_nat (2 * el_dim e + 3)) visit e =
  Some (pieces (el_dim e) (el_sizes e) visit (el_triple e), e).
Proof.
  intros Hd Hb Ha.
  pose proof (form_loop_from visit e (Z.to_nat (2 * el_dim e + 1)) (-1) (el_atb e) ltac:(lia) ltac:(lia) ltac:(lia)) as K.
  assert (Ee : el_set_b e (-1) false = e) by (destruct e; cbn in *; unfold el_set_b; cbn; rewrite Hb, Ha; reflexivity).
  rewrite Ha, Ee in K.
  replace (Z.to_nat (2 * el_dim e + 3)) with (Datatypes.S (Datatypes.S (Z.to_nat (2 * el_dim e + 1)))) by lia.
  rewrite K. unfold pieces. do 3 f_equal. unfold faces_after. change (-1 + 1) with 0. rewrite Z.sub_0_r.
  rewrite <- (faces_order (fun i s => visit i s && (coord (el_triple e) i =? (if s =? 0 then 0 else el_sizes e i - 1)))) by lia.
  apply map_filter_ext; auto. intros b Hin. apply in_zseq in Hin. unfold face_ok. rewrite andb_comm. f_equal. f_equal.
  assert (B : 0 <= Z.quot b 2 < 3) by (rewrite Z.quot_div_nonneg by lia; lia).
  set (i := Z.quot b 2) in *. unfold el_triple. cbn [coord].
  assert (C : i = 0 \/ i = 1 \/ i = 2) by lia. destruct C as [-> | [-> | ->]]; reflexivity.
Qed.

Lemma nested_loop_spec visit : forall fuel e l e', 0 <= el_dim e <= 3 -> el_bid e = -1 -> el_atb e = false ->
  element_loop fuel e = Some (l, e') ->
  nested_loop fuel (Z.to_nat (2 * el_dim e + 3)) visit e =
  Some (map (fun t => (t, pieces (el_dim e) (el_sizes e) visit t)) l, e').
Proof.
  induction fuel as [|fuel IH]; intros e l e' Hd Hb Ha E; [discriminate|].
  cbn [element_loop nested_loop] in *. destruct (next_element_b e Hb Ha) as (B1 & B2 & B3 & B4).
  destruct (next_element e) as [[|] e1]; cbn [snd] in *.
  - destruct (element_loop fuel e1) as [[l1 e2]|] eqn:E1; [|discriminate]. injection E as <- <-.
    pose proof (form_loop_rest visit e1 ltac:(lia) B1 B2) as F. rewrite B3 in F. rewrite F.
    pose proof (IH e1 l1 e2 ltac:(lia) B1 B2 E1) as G. rewrite B3 in G. rewrite G. rewrite B4. reflexivity.
  - injection E as <- <-. reflexivity.
Qed.

(** * Quadrature sums *)
Lemma loop_add n JW (a : Z -> R) : forall A i, point_add_array n JW a A i = if (0 <=? i) && (i <? n) then (A i + a i * JW)%R else A i.
Proof.
  intros A i. unfold point_add_array, loop.
  assert (K : forall m, 0 <= m -> fold_left (fun x j => upd x j (x j + a j * JW)%R) (zseq 0 m) A i = if (0 <=? i) && (i <? m) then (A i + a i * JW)%R else A i).
  { intros m Hm. revert i. pattern m. apply natlike_ind; [| |exact Hm].
    - intros i. cbn. replace ((0 <=? i) && (i <? 0)) with false by lia. reflexivity.
    - clear m Hm. intros m Hm IH i. replace (Z.succ m) with (m+1) by lia. rewrite zseq_snoc by auto. rewrite fold_left_app. cbn [fold_left].
      rewrite Z.add_0_l. unfold upd at 1. destruct (i =? m) eqn:E.
      + assert (i = m) by lia. subst i. rewrite IH. replace ((0 <=? m) && (m <? m)) with false by lia.
        replace ((0 <=? m) && (m <? m + 1)) with true by lia. reflexivity.
      + rewrite IH. replace (i <? m + 1) with (i <? m) by lia. reflexivity. }
  destruct (Z_lt_le_dec n 0).
  - rewrite zseq_nil by lia. cbn [fold_left]. replace ((0 <=? i) && (i <? n)) with false by lia. reflexivity.
  - apply K; auto.
Qed.

Section Kernel.
  Variable dim : Z.
  Variables nel : Z -> Z.
  Variable visit : Z -> Z -> bool.
  Variable npts : triple -> form_visit -> Z.
  Variable JW : triple -> form_visit -> Z -> R.
  Hypothesis Hdim : 0 <= dim <= 3.
  Hypothesis Hnpts : forall e f, 1 <= npts e f.

  Lemma elem_forms_pieces e : elem_forms dim nel visit e = pieces dim nel visit e.
  Proof using Hdim.
    unfold elem_forms.
    pose proof (form_loop_rest visit (mk_elem dim (fun _ => 0) (fun _ => 1) nel 0 0 (coord e) (-1) false) Hdim eq_refl eq_refl) as K.
    cbn [el_dim el_sizes] in K. rewrite K. f_equal. unfold el_triple. cbn [el_ID]. destruct e as [[i j] k]. reflexivity.
  Qed.
  Lemma visit_points_all e f : visit_points npts e f = zseq 0 (npts e f).
  Proof using Hnpts. unfold visit_points. rewrite (C51_point_loop (npts e f) 0 (Hnpts e f)). reflexivity. Qed.

  Lemma accumulate_spec m e cb i : 0 <= i < m ->
    accumulate dim nel visit npts JW m e cb i = integral dim nel visit npts JW e (fun f q => cb f q work i).
  Proof using Hdim Hnpts.
    intros Hi. unfold accumulate, integral. rewrite elem_forms_pieces.
    assert (K : forall l A, fold_left (fun A f => fold_left (fun A q => point_add_array m (JW e f q) (cb f q work) A) (visit_points npts e f) A) l A i =
      (A i + rsum (fun f => rsum (fun q => cb f q work i * JW e f q) (zseq 0 (npts e f))) l)%R).
    { induction l as [|f l IH]; intros A; cbn [fold_left]; [unfold rsum; cbn; lra|].
      rewrite IH, rsum_cons, visit_points_all.
      assert (Q : forall qs A, fold_left (fun A q => point_add_array m (JW e f q) (cb f q work) A) qs A i = (A i + rsum (fun q => cb f q work i * JW e f q) qs)%R).
      { induction qs as [|q qs IHq]; intros B; cbn [fold_left]; [unfold rsum; cbn; lra|]. rewrite IHq, rsum_cons, loop_add.
        replace ((0 <=? i) && (i <? m)) with true by lia. lra. }
      rewrite Q. lra. }
    rewrite K. unfold work. lra.
  Qed.
End Kernel.
