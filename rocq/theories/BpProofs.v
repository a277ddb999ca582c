(** Counting the places written by the blocks of the basis-by-basis preconditioner. *)
From Coq Require Import ZArith List Bool Lia.
From Coq Require Import ZifyBool ZifyNat.
From Verif Require Import Prelude AxisModel SetupModel Box GridModel GridSpec GridProofs MatModel SolvModel SolvProofs BpModel BpSpec.
Import ListNotations.
Open Scope Z_scope.

Lemma at_most_list (P : Z -> Prop) (B : list Z) n : (forall x, P x -> In x B) -> Z.of_nat (length B) <= n -> at_most n P.
Proof.
  intros H HB L HN HL. pose proof (NoDup_incl_length HN (fun x Hx => H x (HL x Hx))). lia.
Qed.
Lemma at_most_none (P : Z -> Prop) : (forall x, ~ P x) -> at_most 0 P.
Proof. intros H L _ HL. destruct L as [|x L]; [cbn; lia|]. destruct (H x). apply HL. left. reflexivity. Qed.
(** It is enough to bound with one element at hand. *)
Lemma at_most_first (P : Z -> Prop) n : 0 <= n -> (forall x, P x -> at_most n P) -> at_most n P.
Proof. intros Hn H L HN HL. destruct L as [|x L]; [cbn; lia|]. apply (H x); auto. apply HL. left. reflexivity. Qed.

Lemma tile_div dof a c : 0 <= c < dof -> (dof * a + c) / dof = a.
Proof. intros H. rewrite (Z.mul_comm dof a), Z.div_add_l by lia. rewrite Z.div_small by lia. lia. Qed.

Section Bp.
  Variables (size dof dim : Z) (N : Z -> Z) (nd : Z -> Z -> range) (ov : Z -> Z).
  Let G r := grid_of dof (nd r).
  Hypothesis W : grid_world size dof N G.
  Hypothesis Hnd : forall r d, 0 <= r < size -> 0 <= d < 3 ->
    0 <= r_gstart (nd r d) <= r_lstart (nd r d) /\ r_lstart (nd r d) + r_lwidth (nd r d) <= r_gstart (nd r d) + r_gwidth (nd r d) /\
    (dim <= d -> r_lstart (nd r d) = 0 /\ r_lwidth (nd r d) = 1).
  Hypothesis Hov : forall d, 0 <= d < dim -> 0 <= ov d.
  Hypothesis Hdim : 1 <= dim <= 3.
  Variable r : Z.
  Hypothesis Hr : 0 <= r < size.
  Let ov' d := if d <? dim then ov d else 0.
  Let blk (s : triple) := ao size G (lin N (modbox N s)).
  (** The tiles in reach of node s. *)
  Let reach (s : triple) : list Z :=
    map (fun a => let '(a0,a1,a2) := a in let '(i,j,k) := s in blk (i+a0, j+a1, k+a2))
      (box (fun d => - (2 * ov' d)) (fun d => 4 * ov' d + 1)).

  Lemma ov'_pos d : 0 <= ov' d \/ d < 0.
  Proof using W Hnd Hov Hdim Hr. unfold ov'. destruct (d <? dim) eqn:E; [|lia]. destruct (Z_lt_dec d 0); [lia|]. left. apply Hov. lia. Qed.

  Lemma dnnz_pos : 1 <= bbb_dnnz dim ov.
  Proof using W Hnd Hov Hdim Hr.
    unfold bbb_dnnz. assert (C : dim = 1 \/ dim = 2 \/ dim = 3) by lia.
    assert (K : forall a b, 1 <= a -> 1 <= b -> 1 <= a * b) by (clear; intros; nia).
    destruct C as [E | [E | E]]; rewrite E in *.
    - change (zseq 0 1) with [0]. cbn [fold_left]. pose proof (Hov 0 ltac:(lia)). lia.
    - change (zseq 0 2) with [0;1]. cbn [fold_left]. pose proof (Hov 0 ltac:(lia)). pose proof (Hov 1 ltac:(lia)). apply K; lia.
    - change (zseq 0 3) with [0;1;2]. cbn [fold_left]. pose proof (Hov 0 ltac:(lia)). pose proof (Hov 1 ltac:(lia)). pose proof (Hov 2 ltac:(lia)).
      apply K; [apply K|]; lia.
  Qed.

  Lemma length_reach s : Z.of_nat (length (reach s)) = bbb_dnnz dim ov.
  Proof using W Hnd Hov Hdim Hr.
    unfold reach. rewrite map_length.
    assert (E : box (fun d => - (2 * ov' d)) (fun d => 4 * ov' d + 1) = box (fun d => - (2 * ov' d)) (fun d => if d <? 0 then 1 else 4 * ov' d + 1)) by reflexivity.
    rewrite E, length_box.
    2:{ intros d. destruct (d <? 0) eqn:F; [lia|]. destruct (ov'_pos d); lia. }
    unfold vol. change (0 <? 0) with false. change (1 <? 0) with false. change (2 <? 0) with false. cbv iota.
    pose proof dnnz_pos as P. rewrite Z2Nat.id.
    2:{ assert (K : forall a b, 0 <= a -> 0 <= b -> 0 <= a * b) by (clear; intros; nia).
        apply K; [apply K|]; [destruct (ov'_pos 0)|destruct (ov'_pos 1)|destruct (ov'_pos 2)]; lia. }
    unfold bbb_dnnz, ov'. assert (C : dim = 1 \/ dim = 2 \/ dim = 3) by lia. destruct C as [E' | [E' | E']]; rewrite E'.
    - change (zseq 0 1) with [0]. cbn [fold_left]. change (0 <? 1) with true. change (1 <? 1) with false. change (2 <? 1) with false. cbv iota. ring.
    - change (zseq 0 2) with [0;1]. cbn [fold_left]. change (0 <? 2) with true. change (1 <? 2) with true. change (2 <? 2) with false. cbv iota. ring.
    - change (zseq 0 3) with [0;1;2]. cbn [fold_left]. change (0 <? 3) with true. change (1 <? 3) with true. change (2 <? 3) with true. cbv iota. ring.
  Qed.

  (** Two members of one block. *)
  Lemma same_block t x y : In x (bbb_block size G dim dof ov nd r t) -> In y (bbb_block size G dim dof ov nd r t) ->
    exists s, x / dof = blk s /\ In (y / dof) (reach s).
  Proof using W Hnd Hov Hdim Hr.
    intros Hx Hy. apply (in_bbb size dof dim N nd ov W Hnd Hov Hdim r Hr) in Hx, Hy. cbv zeta in Hx, Hy.
    destruct Hx as (i & j & k & c & Hi & Hj & Hk & _ & Hc & ->). destruct Hy as (i' & j' & k' & c' & Hi' & Hj' & Hk' & _ & Hc' & ->).
    exists (i,j,k). rewrite !tile_div by assumption. split; [reflexivity|].
    unfold reach. apply in_map_iff. exists (i'-i, j'-j, k'-k). split.
    - replace (i + (i'-i)) with i' by lia. replace (j + (j'-j)) with j' by lia. replace (k + (k'-k)) with k' by lia. reflexivity.
    - apply In_box. unfold in_box. fold (ov' 0) in Hi, Hi'. fold (ov' 1) in Hj, Hj'. fold (ov' 2) in Hk, Hk'.
      destruct Hi as [_ Hi], Hj as [_ Hj], Hk as [_ Hk], Hi' as [_ Hi'], Hj' as [_ Hj'], Hk' as [_ Hk'].
      revert Hi Hj Hk Hi' Hj' Hk'. generalize (ov' 0) (ov' 1) (ov' 2) (coord_of t 0) (coord_of t 1) (coord_of t 2). clear. intros; lia.
  Qed.

  Lemma reach_wrap s s' : blk s = blk s' -> reach s = reach s'.
  Proof using W Hnd Hov Hdim Hr.
    intros E. unfold blk in E.
    apply (ao_inj _ _ _ _ W) in E; [|apply lin_in_range; apply (modbox_in _ _ _ _ W)|apply lin_in_range; apply (modbox_in _ _ _ _ W)].
    apply lin_inj in E; [|apply (modbox_in _ _ _ _ W)|apply (modbox_in _ _ _ _ W)].
    destruct s as [[i j] k], s' as [[i' j'] k']. unfold modbox in E. injection E as E0 E1 E2.
    unfold reach. apply map_ext. intros [[a0 a1] a2]. unfold blk, modbox.
    assert (M : forall n a b c, a mod n = b mod n -> (a + c) mod n = (b + c) mod n).
    { clear. intros n a b c H. rewrite (Zplus_mod a c), (Zplus_mod b c), H. reflexivity. }
    rewrite (M _ _ _ a0 E0), (M _ _ _ a1 E1), (M _ _ _ a2 E2). reflexivity.
  Qed.

  Variable nodes : list triple.
  Let blocks := map (bbb_block size G dim dof ov nd r) nodes.

  (** With one column of the row of tiles at hand, all are in reach of one node. *)
  Lemma tiles_of I J : tile_written dof blocks I J -> exists s, forall J', tile_written dof blocks I J' -> In J' (reach s).
  Proof using W Hnd Hov Hdim Hr.
    intros (i & j & (b & Hb & Hi & Hj) & <- & _). apply in_map_iff in Hb. destruct Hb as (t & <- & _).
    destruct (same_block t i j Hi Hj) as (s & Es & _). exists s.
    intros J' (i' & j' & (b' & Hb' & Hi' & Hj') & EI & <-). apply in_map_iff in Hb'. destruct Hb' as (t' & <- & _).
    destruct (same_block t' i' j' Hi' Hj') as (s' & Es' & H'). rewrite (reach_wrap s s'); [exact H'|congruence].
  Qed.

  Lemma tiles_bound I : at_most (bbb_dnnz dim ov) (tile_written dof blocks I).
  Proof using W Hnd Hov Hdim Hr.
    apply at_most_first; [pose proof dnnz_pos; lia|]. intros J HJ. destruct (tiles_of I J HJ) as (s & Hs).
    apply (at_most_list _ (reach s)); [exact Hs|]. rewrite length_reach. lia.
  Qed.

  Lemma length_expand (l : list Z) : 0 <= dof -> Z.of_nat (length (flat_map (fun a => map (fun c => dof*a + c) (zseq 0 dof)) l)) = Z.of_nat (length l) * dof.
  Proof.
    clear. intros Hd. induction l as [|a l IH]; [reflexivity|]. cbn [flat_map length]. rewrite app_length, map_length, length_zseq. lia.
  Qed.

  Lemma entries_bound i : at_most (bbb_dnnz_aij dim dof ov) (written blocks i).
  Proof using W Hnd Hov Hdim Hr.
    pose proof (w_bs _ _ _ _ W) as Hd. pose proof dnnz_pos as HP.
    apply at_most_first; [unfold bbb_dnnz_aij; apply Z.mul_nonneg_nonneg; lia|]. intros j Hj.
    destruct (tiles_of (i/dof) (j/dof)) as (s & Hs); [exists i, j; auto|].
    apply (at_most_list _ (flat_map (fun a => map (fun c => dof*a + c) (zseq 0 dof)) (reach s))).
    - intros j' Hj'. apply in_flat_map. exists (j'/dof). split; [apply Hs; exists i, j'; auto|].
      apply in_map_iff. exists (j' mod dof). split; [symmetry; apply Z.div_mod; lia|]. apply in_zseq. pose proof (Z.mod_pos_bound j' dof ltac:(lia)). lia.
    - rewrite length_expand, length_reach by lia. unfold bbb_dnnz_aij. lia.
  Qed.
End Bp.
