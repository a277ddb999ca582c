(** Proofs about the definitions of SolvModel. *)
From Coq Require Import ZArith List Bool Lia Reals Lra Permutation.
From Coq Require Import ZifyBool ZifyNat.
From Verif Require Import Prelude RealOrd Box AxisModel SetupModel GridModel GridSpec GridProofs MatModel LagModel SolvModel.
Import ListNotations.
Open Scope Z_scope.

Lemma nth_ghost_any g i j k : 0 <= i < gr_gwidth g 0 -> 0 <= j < gr_gwidth g 1 -> 0 <= k < gr_gwidth g 2 ->
  nth (Z.to_nat (lin (gr_gwidth g) (i,j,k))) (ghost_indices g) (-1) =
  lin (gr_sizes g) (wrap (gr_sizes g) (gr_gstart g 0 + i, gr_gstart g 1 + j, gr_gstart g 2 + k)).
Proof.
  intros Hi Hj Hk. unfold ghost_indices. set (f := fun t => lin (gr_sizes g) (wrap (gr_sizes g) t)).
  assert (L : Z.of_nat (length (box (gr_gstart g) (gr_gwidth g))) = vol (gr_gwidth g)).
  { apply len_box3. intros d Hd. assert (C : d = 0 \/ d = 1 \/ d = 2) by lia. destruct C as [-> | [-> | ->]]; lia. }
  pose proof (lin_range (gr_gwidth g) i j k Hi Hj Hk).
  rewrite nth_indep with (d' := f (0,0,0)) by (rewrite map_length; lia).
  rewrite map_nth, nth_box by auto. reflexivity.
Qed.

Lemma length_flat_map_le : forall (A B : Type) (f : A -> list B) (l : list A) n,
  (forall a, In a l -> (length (f a) <= n)%nat) -> (length (flat_map f l) <= length l * n)%nat.
Proof.
  intros A B f l n. induction l as [|a l IH]; intros H; cbn [flat_map length]; auto.
  rewrite app_length. pose proof (H a ltac:(left; auto)). specialize (IH ltac:(intros; apply H; right; auto)). lia.
Qed.

Section Block.
  Variables (lg : Z -> Z) (bs As Ae : Z) (gs gw ov : Z -> Z) (t : triple).
  Hypothesis Hbs : 1 <= bs.
  Let lo d := Z.max (coord_of t d - ov d) (gs d).
  Let hi d := Z.min (coord_of t d + ov d) (gs d + gw d - 1).

  Lemma in_overlap x : In x (compute_overlap lg bs As Ae gs gw ov t) <->
    exists i j k c, (lo 0 <= i <= hi 0) /\ (lo 1 <= j <= hi 1) /\ (lo 2 <= k <= hi 2) /\
      As <= lg (lin gw (i - gs 0, j - gs 1, k - gs 2)) < Ae /\ 0 <= c < bs /\ x = bs * lg (lin gw (i - gs 0, j - gs 1, k - gs 2)) + c.
  Proof.
    unfold compute_overlap. fold (lo 0) (lo 1) (lo 2) (hi 0) (hi 1) (hi 2).
    assert (EL : forall i j k, i - gs 0 + (j - gs 1) * gw 0 + (k - gs 2) * gw 0 * gw 1 = lin gw (i - gs 0, j - gs 1, k - gs 2)).
    { intros. unfold lin. ring. }
    rewrite in_flat_map. split.
    - intros (i & Hi & H). apply in_flat_map in H. destruct H as (j & Hj & H). apply in_flat_map in H. destruct H as (k & Hk & H).
      apply in_zseq in Hi, Hj, Hk. rewrite EL in H. exists i, j, k.
      destruct ((_ <? _) || (_ <=? _)) eqn:E in H; [destruct H|]. apply in_map_iff in H. destruct H as (c & <- & Hc). apply in_zseq in Hc.
      exists c. split; [lia|]. split; [lia|]. split; [lia|]. split; [lia|]. split; [lia|]. lia.
    - intros (i & j & k & c & Hi & Hj & Hk & HA & Hc & ->). exists i. split; [apply in_zseq; lia|].
      apply in_flat_map. exists j. split; [apply in_zseq; lia|]. apply in_flat_map. exists k. split; [apply in_zseq; lia|].
      rewrite EL. destruct ((_ <? _) || (_ <=? _)) eqn:E; [lia|]. apply in_map_iff. exists c. split; [lia|]. apply in_zseq; lia.
  Qed.

  Lemma length_overlap : (forall d, 0 <= d < 3 -> 0 <= ov d) ->
    Z.of_nat (length (compute_overlap lg bs As Ae gs gw ov t)) <= (2 * ov 0 + 1) * ((2 * ov 1 + 1) * ((2 * ov 2 + 1) * bs)).
  Proof.
    intros Ho. pose proof (Ho 0 ltac:(lia)). pose proof (Ho 1 ltac:(lia)). pose proof (Ho 2 ltac:(lia)).
    unfold compute_overlap. fold (lo 0) (lo 1) (lo 2) (hi 0) (hi 1) (hi 2).
    assert (L : forall d, 0 <= ov d -> Z.of_nat (length (zseq (lo d) (hi d - lo d + 1))) <= 2 * ov d + 1).
    { intros d Hd. rewrite length_zseq. unfold lo, hi. lia. }
    set (n2 := (2 * ov 2 + 1) * bs). set (n1 := (2 * ov 1 + 1) * n2).
    assert (0 <= n2) by (unfold n2; apply Z.mul_nonneg_nonneg; lia). assert (0 <= n1) by (unfold n1; apply Z.mul_nonneg_nonneg; lia).
    assert (K : forall (A B : Type) (f : A -> list B) l m n, 0 <= m -> 0 <= n -> Z.of_nat (length l) <= m -> (forall a, In a l -> Z.of_nat (length (f a)) <= n) ->
      Z.of_nat (length (flat_map f l)) <= m * n).
    { intros A B f l m n Hm Hn Hl Hf. pose proof (length_flat_map_le A B f l (Z.to_nat n)) as Q.
      specialize (Q ltac:(intros a Ha; specialize (Hf a Ha); lia)).
      apply Z.le_trans with (Z.of_nat (length l) * n); [|apply Z.mul_le_mono_nonneg_r; lia].
      replace n with (Z.of_nat (Z.to_nat n)) by lia. rewrite <- Nat2Z.inj_mul. lia. }
    apply K; [lia|auto|apply L; auto|]. intros i _. apply K; [lia|auto|apply L; auto|]. intros j _. apply K; [lia|lia|apply L; auto|].
    intros k _. destruct (_ || _); [cbn [length]; lia|]. rewrite map_length, length_zseq. lia.
  Qed.

  Lemma NoDup_overlap :
    (forall i j k i' j' k', (lo 0 <= i <= hi 0) -> (lo 1 <= j <= hi 1) -> (lo 2 <= k <= hi 2) ->
       (lo 0 <= i' <= hi 0) -> (lo 1 <= j' <= hi 1) -> (lo 2 <= k' <= hi 2) ->
       lg (lin gw (i - gs 0, j - gs 1, k - gs 2)) = lg (lin gw (i' - gs 0, j' - gs 1, k' - gs 2)) -> i = i' /\ j = j' /\ k = k') ->
    NoDup (compute_overlap lg bs As Ae gs gw ov t).
  Proof.
    intros HI. unfold compute_overlap. fold (lo 0) (lo 1) (lo 2) (hi 0) (hi 1) (hi 2).
    assert (EL : forall i j k, i - gs 0 + (j - gs 1) * gw 0 + (k - gs 2) * gw 0 * gw 1 = lin gw (i - gs 0, j - gs 1, k - gs 2)).
    { intros. unfold lin. ring. }
    set (leaf := fun i j k => let A := lg (i - gs 0 + (j - gs 1) * gw 0 + (k - gs 2) * gw 0 * gw 1) in
        if (A <? As) || (Ae <=? A) then [] else map (fun c => c + bs * A) (zseq 0 bs)).
    assert (IL : forall i j k x, In x (leaf i j k) -> exists c, 0 <= c < bs /\ x = bs * lg (lin gw (i - gs 0, j - gs 1, k - gs 2)) + c).
    { intros i j k x Hx. unfold leaf in Hx. cbv zeta in Hx. rewrite EL in Hx. destruct (_ || _); [destruct Hx|].
      apply in_map_iff in Hx. destruct Hx as (c & <- & Hc). apply in_zseq in Hc. exists c. lia. }
    assert (IJ : forall i j k i' j' k' x, (lo 0 <= i <= hi 0) -> (lo 1 <= j <= hi 1) -> (lo 2 <= k <= hi 2) ->
       (lo 0 <= i' <= hi 0) -> (lo 1 <= j' <= hi 1) -> (lo 2 <= k' <= hi 2) -> In x (leaf i j k) -> In x (leaf i' j' k') -> i = i' /\ j = j' /\ k = k').
    { intros i j k i' j' k' x H1 H2 H3 H4 H5 H6 Hx Hx'. apply IL in Hx, Hx'. destruct Hx as (c & Hc & E). destruct Hx' as (c' & Hc' & E').
      apply HI; auto. rewrite E in E'. destruct (block_inj _ _ _ _ _ Hbs Hc Hc' E'). auto. }
    change (NoDup (flat_map (fun i => flat_map (fun j => flat_map (fun k => leaf i j k) (zseq (lo 2) (hi 2 - lo 2 + 1)))
      (zseq (lo 1) (hi 1 - lo 1 + 1))) (zseq (lo 0) (hi 0 - lo 0 + 1)))).
    apply NoDup_flat_map; [apply NoDup_zseq| |].
    - intros i Hi. apply in_zseq in Hi. apply NoDup_flat_map; [apply NoDup_zseq| |].
      + intros j Hj. apply in_zseq in Hj. apply NoDup_flat_map; [apply NoDup_zseq| |].
        * intros k _. unfold leaf. cbv zeta. destruct (_ || _); [constructor|]. apply NoDup_map_inj; [|apply NoDup_zseq]. intros; lia.
        * intros k k' x Hk Hk' Hx Hx'. apply in_zseq in Hk, Hk'. eapply (IJ i j k i j k'); eauto; lia.
      + intros j j' x Hj Hj' Hx Hx'. apply in_zseq in Hj, Hj'. apply in_flat_map in Hx, Hx'. destruct Hx as (k & Hk & Hx). destruct Hx' as (k' & Hk' & Hx').
        apply in_zseq in Hk, Hk'. eapply (IJ i j k i j' k'); eauto; lia.
    - intros i i' x Hi Hi' Hx Hx'. apply in_zseq in Hi, Hi'. apply in_flat_map in Hx, Hx'. destruct Hx as (j & Hj & Hx). destruct Hx' as (j' & Hj' & Hx').
      apply in_flat_map in Hx, Hx'. destruct Hx as (k & Hk & Hx). destruct Hx' as (k' & Hk' & Hx').
      apply in_zseq in Hk, Hk', Hj, Hj'. eapply (IJ i j k i' j' k'); eauto; lia.
  Qed.
End Block.

(** The block of a node in terms of grid coordinates. *)
Section Bbb.
  Variables (size dof dim : Z) (N : Z -> Z) (nd : Z -> Z -> range) (ov : Z -> Z).
  Let G r := grid_of dof (nd r).
  Hypothesis W : grid_world size dof N G.
  Hypothesis Hnd : forall r d, 0 <= r < size -> 0 <= d < 3 ->
    0 <= r_gstart (nd r d) <= r_lstart (nd r d) /\ r_lstart (nd r d) + r_lwidth (nd r d) <= r_gstart (nd r d) + r_gwidth (nd r d) /\
    (dim <= d -> r_lstart (nd r d) = 0 /\ r_lwidth (nd r d) = 1).
  Hypothesis Hov : forall d, 0 <= d < dim -> 0 <= ov d.
  Hypothesis Hdim : 1 <= dim <= 3.
  Variable r : Z.
  Hypothesis Hr : 0 <= r < size.
  Let g := bbb_grid dim ov (nd r).
  Let ov' d := if d <? dim then ov d else 0.

  Lemma bbb_gs d : 0 <= d < 3 -> 0 <= gr_gstart g d <= r_lstart (nd r d) /\ gr_sizes g d = N d /\ 1 <= N d /\ 0 <= ov' d.
  Proof.
    intros Hd. destruct (Hnd r d Hr Hd) as (A & B & C). pose proof (w_dir _ _ _ _ W r d Hr Hd) as D. cbn [G grid_of gr_sizes gr_lstart gr_lwidth] in D.
    split; [|split; [apply D|split; [apply (w_N _ _ _ _ W d Hd)|]]].
    - cbn [g bbb_grid gr_gstart]. destruct (d <? dim) eqn:E; [|lia]. pose proof (Hov d ltac:(lia)). unfold bbb_ghost; cbn [fst].
      destruct (_ <? 0) eqn:?; lia.
    - unfold ov'. destruct (d <? dim) eqn:E; [apply Hov|]; lia.
  Qed.

  Lemma bbb_lg i j k : gr_gstart g 0 <= i < gr_gstart g 0 + gr_gwidth g 0 -> gr_gstart g 1 <= j < gr_gstart g 1 + gr_gwidth g 1 ->
    gr_gstart g 2 <= k < gr_gstart g 2 + gr_gwidth g 2 ->
    ao size G (nth (Z.to_nat (lin (gr_gwidth g) (i - gr_gstart g 0, j - gr_gstart g 1, k - gr_gstart g 2))) (ghost_indices g) (-1)) =
    ao size G (lin N (modbox N (i, j, k))).
  Proof.
    intros Hi Hj Hk. rewrite nth_ghost_any by lia.
    destruct (bbb_gs 0 ltac:(lia)) as (A0 & B0 & C0 & _). destruct (bbb_gs 1 ltac:(lia)) as (A1 & B1 & C1 & _). destruct (bbb_gs 2 ltac:(lia)) as (A2 & B2 & C2 & _).
    f_equal. unfold wrap, modbox. rewrite B0, B1, B2.
    rewrite !wrap1_mod by lia. unfold lin. rewrite B0, B1.
    replace (gr_gstart g 0 + (i - gr_gstart g 0)) with i by lia.
    replace (gr_gstart g 1 + (j - gr_gstart g 1)) with j by lia.
    replace (gr_gstart g 2 + (k - gr_gstart g 2)) with k by lia. reflexivity.
  Qed.

  Lemma dof_div x : dof * x / dof = x.
  Proof. pose proof (w_bs _ _ _ _ W). rewrite Z.mul_comm. apply Z.div_mul. lia. Qed.

  Lemma in_bbb t x : In x (bbb_block size G dim dof ov nd r t) <->
    exists i j k c, let near d s := gr_gstart g d <= s < gr_gstart g d + gr_gwidth g d /\ Z.abs (s - coord_of t d) <= ov' d in
      near 0 i /\ near 1 j /\ near 2 k /\
      off G r <= ao size G (lin N (modbox N (i,j,k))) < off G (r+1) /\ 0 <= c < dof /\ x = dof * ao size G (lin N (modbox N (i,j,k))) + c.
  Proof.
    unfold bbb_block. rewrite !dof_div. fold g. rewrite in_overlap by apply (w_bs _ _ _ _ W). cbv zeta. fold (ov' 0) (ov' 1) (ov' 2).
    split; intros (i & j & k & c & Hi & Hj & Hk & HA & Hc & E); exists i, j, k, c.
    - rewrite bbb_lg in HA, E by lia. split; [lia|]. split; [lia|]. split; [lia|]. auto.
    - rewrite bbb_lg by lia. split; [lia|]. split; [lia|]. split; [lia|]. auto.
  Qed.
End Bbb.

(** Global block of an owned node. *)
Lemma own_block size bs N G : grid_world size bs N G -> forall r i j k, 0 <= r < size ->
  in_box (gr_lstart (G r)) (gr_lwidth (G r)) (i,j,k) ->
  ao size G (lin N (i,j,k)) = off G r + lin (gr_lwidth (G r)) (i - gr_lstart (G r) 0, j - gr_lstart (G r) 1, k - gr_lstart (G r) 2) /\
  off G r <= ao size G (lin N (i,j,k)) < off G (r+1).
Proof.
  intros W r i j k Hr Hin. unfold in_box in Hin.
  set (pos := lin (gr_lwidth (G r)) (i - gr_lstart (G r) 0, j - gr_lstart (G r) 1, k - gr_lstart (G r) 2)).
  assert (HP : 0 <= pos < nlocal (G r)) by (apply lin_range; lia).
  destruct (ao_local _ _ _ _ W r pos 0 Hr HP) as [E _].
  assert (EN : nth (Z.to_nat pos) (local_indices (G r)) 0 = lin N (i,j,k)).
  { unfold local_indices. rewrite nth_indep with (d' := lin (gr_sizes (G r)) (0,0,0)).
    - rewrite map_nth. unfold pos. rewrite nth_box by lia. rewrite (w_lin _ _ _ _ W) by auto. f_equal. f_equal; [f_equal|]; lia.
    - pose proof (len_local _ _ _ _ W r Hr) as L. unfold local_indices in L. lia. }
  rewrite EN in E. rewrite E. split; auto. rewrite off_S by lia. lia.
Qed.

Lemma mod_close n s s' : 1 <= n -> Z.abs (s - s') < n -> s mod n = s' mod n -> s = s'.
Proof.
  intros Hn Q C. assert (D : (s - s') mod n = 0) by (rewrite Zminus_mod, C, Z.sub_diag; apply Z.mod_0_l; lia).
  apply Z.mod_divide in D; [|lia]. destruct D as (q & D). clear C. rewrite D in Q. rewrite Z.abs_mul in Q.
  destruct (Z.eq_dec q 0) as [->|Hq]; [lia|]. exfalso. assert (1 <= Z.abs q) by lia. replace (Z.abs n) with n in Q by lia.
  clear D Hq. generalize dependent (Z.abs q). intros z Q H. clear - Q H Hn. nia.
Qed.

Section Cover.
  Variables (size dof dim : Z) (N : Z -> Z) (nd : Z -> Z -> range) (ov : Z -> Z).
  Let G r := grid_of dof (nd r).
  Hypothesis W : grid_world size dof N G.
  Hypothesis Hnd : forall r d, 0 <= r < size -> 0 <= d < 3 ->
    0 <= r_gstart (nd r d) <= r_lstart (nd r d) /\ r_lstart (nd r d) + r_lwidth (nd r d) <= r_gstart (nd r d) + r_gwidth (nd r d) /\
    (dim <= d -> r_lstart (nd r d) = 0 /\ r_lwidth (nd r d) = 1).
  Hypothesis Hov : forall d, 0 <= d < dim -> 0 <= ov d.
  Hypothesis Hdim : 1 <= dim <= 3.
  Variable r : Z.
  Hypothesis Hr : 0 <= r < size.

  Definition missed t d := 0 < ov d <= r_lstart (nd r d) /\ r_size (nd r d) <= r_lstart (nd r d) + r_lwidth (nd r d) /\
    r_lstart (nd r d) - ov d + r_gwidth (nd r d) <= coord_of t d.

  Lemma reach d x : 0 <= d < 3 -> r_lstart (nd r d) <= x < r_lstart (nd r d) + r_lwidth (nd r d) ->
    let g := bbb_grid dim ov (nd r) in
    (gr_gstart g d <= x < gr_gstart g d + gr_gwidth g d) <->
    (d < dim -> ~ (0 < ov d <= r_lstart (nd r d) /\ r_size (nd r d) <= r_lstart (nd r d) + r_lwidth (nd r d) /\
       r_lstart (nd r d) - ov d + r_gwidth (nd r d) <= x)).
  Proof.
    intros Hd Hx g. destruct (Hnd r d Hr Hd) as (A & B & C). cbn [g bbb_grid gr_gstart gr_gwidth].
    destruct (d <? dim) eqn:E; [|specialize (C ltac:(lia)); split; lia].
    pose proof (Hov d ltac:(lia)). unfold bbb_ghost; cbn [fst snd]. destruct (_ <? 0) eqn:?; destruct (_ <=? _) eqn:?; lia.
  Qed.

  Lemma coord3 t : t = (coord_of t 0, coord_of t 1, coord_of t 2).
  Proof. destruct t as [[i j] k]. reflexivity. Qed.

  Lemma cover_iff t c : 0 <= c < dof -> in_box (gr_lstart (G r)) (gr_lwidth (G r)) t ->
    ((exists t', in_box (gr_lstart (G r)) (gr_lwidth (G r)) t' /\ In (dof * ao size G (lin N t) + c) (bbb_block size G dim dof ov nd r t'))
     <-> forall d, 0 <= d < dim -> ~ missed t d).
  Proof.
    intros Hc Ht. pose proof (own_in_grid _ _ _ _ W r t Hr Ht) as Hg. pose proof (w_bs _ _ _ _ W) as Hb.
    assert (OB : off G r <= ao size G (lin N t) < off G (r+1)).
    { rewrite (coord3 t) in *. apply (own_block _ _ _ _ W r _ _ _ Hr Ht). }
    assert (T : forall d, 0 <= d < 3 -> r_lstart (nd r d) <= coord_of t d < r_lstart (nd r d) + r_lwidth (nd r d) /\ coord_of t d < N d /\ 0 <= coord_of t d).
    { rewrite (coord3 t) in Ht, Hg. unfold in_box in Ht, Hg. cbn [G grid_of gr_lstart gr_lwidth] in Ht. unfold zero3 in Hg.
      intros d Hd. assert (C : d = 0 \/ d = 1 \/ d = 2) by lia. destruct C as [-> | [-> | ->]]; lia. }
    split.
    - intros (t' & _ & Hin) d Hd HM. apply (in_bbb size dof dim N nd ov W Hnd Hov Hdim r Hr) in Hin. cbv zeta in Hin.
      destruct Hin as (i & j & k & c' & Hi & Hj & Hk & HA & Hc' & E). destruct (block_inj _ _ _ _ _ Hb Hc Hc' E) as [E1 _].
      apply (ao_inj _ _ _ _ W) in E1; [|apply lin_in_range; exact Hg|apply lin_in_range; apply (modbox_in _ _ _ _ W)].
      apply lin_inj in E1; [|exact Hg|apply (modbox_in _ _ _ _ W)].
      pose proof (reach d (coord_of t d) ltac:(lia) ltac:(apply T; lia)) as RC. cbv zeta in RC.
      destruct (T d ltac:(lia)) as (T1 & T2 & T3).
      assert (B1 : gr_gstart (bbb_grid dim ov (nd r)) d <= coord_of t d < gr_gstart (bbb_grid dim ov (nd r)) d + gr_gwidth (bbb_grid dim ov (nd r)) d).
      { pose proof (bbb_gs size dof dim N nd ov W Hnd Hov r Hr d ltac:(lia)) as (G1 & _ & G3 & _).
        assert (S : forall s, gr_gstart (bbb_grid dim ov (nd r)) d <= s < gr_gstart (bbb_grid dim ov (nd r)) d + gr_gwidth (bbb_grid dim ov (nd r)) d ->
          coord_of t d = s mod N d -> gr_gstart (bbb_grid dim ov (nd r)) d <= coord_of t d < gr_gstart (bbb_grid dim ov (nd r)) d + gr_gwidth (bbb_grid dim ov (nd r)) d).
        { intros s Hs Es. pose proof (Z.mod_le s (N d) ltac:(lia) ltac:(lia)). lia. }
        assert (CD : d = 0 \/ d = 1 \/ d = 2) by lia. rewrite (coord3 t) in E1. unfold modbox in E1. injection E1 as E0 E1 E2.
        destruct CD as [-> | [-> | ->]]; [apply (S i); [apply Hi|auto]|apply (S j); [apply Hj|auto]|apply (S k); [apply Hk|auto]]. }
      apply RC in B1; [|lia]. apply B1. exact HM.
    - intros HM. exists t. split; auto. apply (in_bbb size dof dim N nd ov W Hnd Hov Hdim r Hr). cbv zeta.
      exists (coord_of t 0), (coord_of t 1), (coord_of t 2), c.
      assert (NR : forall d, 0 <= d < 3 -> gr_gstart (bbb_grid dim ov (nd r)) d <= coord_of t d < gr_gstart (bbb_grid dim ov (nd r)) d + gr_gwidth (bbb_grid dim ov (nd r)) d /\
        Z.abs (coord_of t d - coord_of t d) <= (if d <? dim then ov d else 0)).
      { intros d Hd. split.
        - apply (reach d (coord_of t d) Hd); [apply T; auto|]. intros Hlt. apply HM. lia.
        - destruct (d <? dim) eqn:E; [pose proof (Hov d ltac:(lia))|]; lia. }
      split; [apply NR; lia|]. split; [apply NR; lia|]. split; [apply NR; lia|].
      rewrite <- coord3, (modbox_id N t Hg). auto.
  Qed.

  Lemma block_owned t x : In x (bbb_block size G dim dof ov nd r t) -> dof * off G r <= x < dof * off G (r+1).
  Proof.
    intros H. pose proof (w_bs _ _ _ _ W). apply (in_bbb size dof dim N nd ov W Hnd Hov Hdim r Hr) in H. cbv zeta in H.
    destruct H as (i & j & k & c & _ & _ & _ & HA & Hc & ->). change (fun r0 => grid_of dof (nd r0)) with G in HA |- *. revert HA. generalize (ao size G (lin N (modbox N (i,j,k)))) (off G r) (off G (r+1)).
    intros A a b HA. assert (dof * a <= dof * A) by (apply Z.mul_le_mono_nonneg_l; lia). assert (dof * (A+1) <= dof * b) by (apply Z.mul_le_mono_nonneg_l; lia). lia.
  Qed.

  Lemma block_length t : Z.of_nat (length (bbb_block size G dim dof ov nd r t)) <= bbb_capacity dim dof ov.
  Proof.
    unfold bbb_block. eapply Z.le_trans.
    - apply length_overlap; [apply (w_bs _ _ _ _ W)|]. intros d Hd. destruct (d <? dim) eqn:E; [apply Hov|]; lia.
    - apply Z.eq_le_incl. unfold bbb_capacity. assert (C : dim = 1 \/ dim = 2 \/ dim = 3) by lia. destruct C as [E | [E | E]]; rewrite E.
      + change (zseq 0 1) with [0]. cbn [fold_left]. change (0 <? 1) with true. change (1 <? 1) with false. change (2 <? 1) with false. cbv iota. ring.
      + change (zseq 0 2) with [0;1]. cbn [fold_left]. change (0 <? 2) with true. change (1 <? 2) with true. change (2 <? 2) with false. cbv iota. ring.
      + change (zseq 0 3) with [0;1;2]. cbn [fold_left]. change (0 <? 3) with true. change (1 <? 3) with true. change (2 <? 3) with true. cbv iota. ring.
  Qed.

  Lemma block_nodup t : (forall d, 0 <= d < dim -> 2 * ov d < N d) -> NoDup (bbb_block size G dim dof ov nd r t).
  Proof.
    intros HN. unfold bbb_block. apply NoDup_overlap; [apply (w_bs _ _ _ _ W)|]. intros i j k i' j' k' Hi Hj Hk Hi' Hj' Hk' E.
    assert (NR : forall d s, Z.max (coord_of t d - (if d <? dim then ov d else 0)) (gr_gstart (bbb_grid dim ov (nd r)) d) <= s <=
      Z.min (coord_of t d + (if d <? dim then ov d else 0)) (gr_gstart (bbb_grid dim ov (nd r)) d + gr_gwidth (bbb_grid dim ov (nd r)) d - 1) ->
      gr_gstart (bbb_grid dim ov (nd r)) d <= s < gr_gstart (bbb_grid dim ov (nd r)) d + gr_gwidth (bbb_grid dim ov (nd r)) d /\ Z.abs (s - coord_of t d) <= (if d <? dim then ov d else 0)).
    { intros d s. generalize (if d <? dim then ov d else 0) (gr_gstart (bbb_grid dim ov (nd r)) d) (gr_gwidth (bbb_grid dim ov (nd r)) d) (coord_of t d). clear. intros; lia. }
    apply NR in Hi, Hj, Hk, Hi', Hj', Hk'.
    pose proof (bbb_lg size dof dim N nd ov W Hnd Hov Hdim r Hr i j k (proj1 Hi) (proj1 Hj) (proj1 Hk)) as L. change (fun r0 => grid_of dof (nd r0)) with G in L. cbv beta in E. rewrite L in E.
    pose proof (bbb_lg size dof dim N nd ov W Hnd Hov Hdim r Hr i' j' k' (proj1 Hi') (proj1 Hj') (proj1 Hk')) as L'. change (fun r0 => grid_of dof (nd r0)) with G in L'. cbv beta in E. rewrite L' in E.
    apply (ao_inj _ _ _ _ W) in E; [|apply lin_in_range; apply (modbox_in _ _ _ _ W)|apply lin_in_range; apply (modbox_in _ _ _ _ W)].
    apply lin_inj in E; [|apply (modbox_in _ _ _ _ W)|apply (modbox_in _ _ _ _ W)]. unfold modbox in E.
    assert (M : forall d s s', 0 <= d < 3 -> Z.abs (s - coord_of t d) <= (if d <? dim then ov d else 0) -> Z.abs (s' - coord_of t d) <= (if d <? dim then ov d else 0) ->
       s mod N d = s' mod N d -> s = s').
    { intros d s s' Hd A B. pose proof (w_N _ _ _ _ W d Hd) as N1. apply mod_close; [exact N1|].
      destruct (d <? dim) eqn:F.
      - assert (Q : 2 * ov d < N d) by (apply HN; clear - F Hd; lia). clear - A B Q. lia.
      - clear - A B N1. lia. }
    injection E as E0 E1 E2. split; [apply (M 0); [clear; lia|apply Hi|apply Hi'|auto]|]. split; [apply (M 1); [clear; lia|apply Hj|apply Hj'|auto]|apply (M 2); [clear; lia|apply Hk|apply Hk'|auto]].
  Qed.
End Cover.
