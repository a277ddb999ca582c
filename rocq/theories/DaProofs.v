(** Lemmas on the DMDAs of an IGA. *)
From Coq Require Import ZArith List Bool Lia.
From Coq Require Import ZifyBool ZifyNat.
From Verif Require Import Prelude AxisModel AxisSpec PartModel PartSpec PartProofs SetupModel SetupProofs SetupProps
  Box GridModel GridSpec GridProofs GridProofs2 GridSetup DrawModel DrawProofs DaModel.
From Verif Require DrawProps.
Import ListNotations.
Open Scope Z_scope.

(** Prefix sums of the widths of a tiling are its starts. *)
Lemma tiles_prefix : forall P N s w c, tiles P N s w -> 0 <= c < P ->
  fold_left Z.add (firstn (Z.to_nat c) (map w (zseq 0 P))) 0 = s c.
Proof.
  intros P N s w c HT Hc. destruct HT as (_ & T2 & _ & T4 & _).
  assert (H : forall k, (k < Z.to_nat P)%nat -> fold_left Z.add (firstn k (map w (zseq 0 P))) 0 = s (Z.of_nat k)).
  { induction k as [|k IH]; intros Hk; [symmetry; exact T2|].
    assert (Hs : firstn (S k) (map w (zseq 0 P)) = firstn k (map w (zseq 0 P)) ++ [w (Z.of_nat k)]).
    { assert (Hn : nth_error (map w (zseq 0 P)) k = Some (w (Z.of_nat k))).
      { rewrite nth_error_map. rewrite (nth_error_nth' _ 0) by (rewrite length_zseq; lia). cbn. rewrite nth_zseq by lia. reflexivity. }
      clear - Hn. revert Hn. generalize (w (Z.of_nat k)) as v. generalize (map w (zseq 0 P)) as l.
      induction k as [|k IHk]; intros l v Hn; destruct l as [|y l]; try discriminate Hn.
      - injection Hn as ->. reflexivity.
      - cbn [firstn app]. f_equal. exact (IHk l v Hn). }
    rewrite Hs, fold_left_app. cbn [fold_left]. rewrite IH by lia. rewrite Nat2Z.inj_succ. unfold Z.succ. rewrite T4 by lia. reflexivity. }
  rewrite H by lia. f_equal. lia.
Qed.
Lemma tiles_total : forall P N s w, tiles P N s w -> fold_left Z.add (map w (zseq 0 P)) 0 = N.
Proof.
  intros P N s w HT. pose proof HT as (T1 & T2 & T3 & T4 & T5).
  pose proof (tiles_prefix P N s w (P-1) HT ltac:(lia)) as K.
  assert (E : zseq 0 P = zseq 0 (P-1) ++ [P-1]).
  { unfold zseq. replace (Z.to_nat P) with (S (Z.to_nat (P-1))) by lia. rewrite seq_S, map_app. cbn. do 2 f_equal. lia. }
  rewrite E in K |- *. rewrite map_app in K |- *. rewrite firstn_app, map_length, length_zseq, Nat.sub_diag in K. cbn [firstn] in K.
  rewrite app_nil_r, firstn_all2 in K by (rewrite map_length, length_zseq; lia).
  rewrite fold_left_app, K. cbn [map fold_left]. lia.
Qed.

(** The coordinates of a rank in the process grid. *)
Lemma coords_pad : forall n r, Forall (fun a => 1 <= a) n -> Z.of_nat (length n) <= 3 -> 0 <= r < zprod n ->
  pad 0 (rank_coords n r) 0 = r mod pad 1 n 0 /\
  pad 0 (rank_coords n r) 1 = (r / pad 1 n 0) mod pad 1 n 1 /\
  pad 0 (rank_coords n r) 2 = r / (pad 1 n 0 * pad 1 n 1) /\
  pad 1 n 0 * pad 1 n 1 * pad 1 n 2 = zprod n.
Proof.
  assert (D : forall a r, 1 <= a -> (r - r mod a) / a = r / a).
  { intros a r Ha. pose proof (Z.div_mod r a ltac:(lia)) as E. replace (r - r mod a) with (r / a * a) by lia. apply Z.div_mul. lia. }
  intros n r Hn HL Hr. assert (HF : forall x, In x n -> 1 <= x) by (apply Forall_forall; exact Hn). destruct n as [|a [|b [|c [|]]]]; cbn [length] in HL; try (exfalso; lia).
  - change (zprod []) with 1 in *. assert (r = 0) by lia. subst r. repeat split; reflexivity.
  - pose proof (HF a ltac:(left; reflexivity)) as Ha. change (zprod [a]) with (a * 1) in *.
    change (pad 0 (rank_coords [a] r) 0) with (r mod a). change (pad 0 (rank_coords [a] r) 1) with 0. change (pad 0 (rank_coords [a] r) 2) with 0.
    change (pad 1 [a] 0) with a. change (pad 1 [a] 1) with 1. change (pad 1 [a] 2) with 1.
    rewrite Z.mod_1_r, Z.mul_1_r, Z.div_small by lia. split; [reflexivity|]. split; [reflexivity|]. split; [reflexivity|]. lia.
  - pose proof (HF a ltac:(left; reflexivity)) as Ha. pose proof (HF b ltac:(right; left; reflexivity)) as Hb. change (zprod [a; b]) with (a * (b * 1)) in *.
    change (pad 0 (rank_coords [a; b] r) 0) with (r mod a). change (pad 0 (rank_coords [a; b] r) 1) with (((r - r mod a) / a) mod b). change (pad 0 (rank_coords [a; b] r) 2) with 0.
    change (pad 1 [a; b] 0) with a. change (pad 1 [a; b] 1) with b. change (pad 1 [a; b] 2) with 1.
    rewrite D by auto. rewrite Z.mul_1_r in *. split; [reflexivity|]. split; [reflexivity|]. split; [rewrite Z.div_small by lia; reflexivity|]. ring.
  - pose proof (HF a ltac:(left; reflexivity)) as Ha. pose proof (HF b ltac:(right; left; reflexivity)) as Hb.
    pose proof (HF c ltac:(right; right; left; reflexivity)) as Hc. change (zprod [a; b; c]) with (a * (b * (c * 1))) in *.
    change (pad 0 (rank_coords [a; b; c] r) 0) with (r mod a). change (pad 0 (rank_coords [a; b; c] r) 1) with (((r - r mod a) / a) mod b).
    change (pad 0 (rank_coords [a; b; c] r) 2) with (((((r - r mod a) / a) - ((r - r mod a) / a) mod b) / b) mod c).
    change (pad 1 [a; b; c] 0) with a. change (pad 1 [a; b; c] 1) with b. change (pad 1 [a; b; c] 2) with c.
    rewrite (D a r Ha). rewrite (D b (r / a) Hb). rewrite Z.mul_1_r in *. split; [reflexivity|]. split; [reflexivity|]. split; [|ring].
    rewrite (Z.div_div r a b); [|clear - Ha; lia|clear - Hb; lia]. apply Z.mod_small.
    assert (Hab : 0 < a * b) by (apply Z.mul_pos_pos; [clear - Ha; lia|clear - Hb; lia]).
    destruct Hr as [Hr1 Hr2]. split; [apply Z.div_pos; assumption|]. apply Z.div_lt_upper_bound; [assumption|]. rewrite <- Z.mul_assoc. exact Hr2.
Qed.
Lemma rank_coords_length : forall n r, length (rank_coords n r) = length n.
Proof. induction n as [|a n IH]; intros r; [reflexivity|]. cbn [rank_coords length]. rewrite IH. reflexivity. Qed.

Section Dm.
  Context {O : KnotOrd}.
  Variables (g2 : Z -> Z -> Z -> Z) (g3 : Z -> Z -> Z -> Z -> Z) (maxint size dim : Z) (axes : Z -> axis O) (user : list Z)
            (LY : Z -> layout).
  Hypothesis S : setup_ok g2 g3 maxint size dim axes user LY.
  Variables (rg : layout -> Z -> Z * Z) (N : Z -> Z) (s w : Z -> Z -> Z -> Z) (gs : layout -> Z -> Z).
  Hypothesis Hrg : forall n c i, 0 <= i < dim -> rg (layout_of dim axes n c) i = (s i (pad 1 n i) (pad 0 c i), w i (pad 1 n i) (pad 0 c i)).
  Hypothesis HT : forall i P, 0 <= i < dim -> 1 <= P <= ax_nel (axes i) -> tiles P (N i) (s i P) (w i P).
  Hypothesis Hw : forall r d, 0 <= r < size -> 0 <= d < dim -> 1 <= snd (rg (LY r) d).
  Hypothesis Hrg' : forall n c i, dim <= i < 3 -> rg (layout_of dim axes n c) i = (0, 1).
  Hypothesis HN : forall i, dim <= i < 3 -> N i = 1.
  Hypothesis Hgs : forall n c i, 0 <= i < dim -> gs (layout_of dim axes n c) i = N i.

  Let D bs r := create_dmda dim LY bs (gs (LY r)) (fun q d => snd (rg (LY q) d)) None true 0 r.

  Lemma dm_facts : forall bs r, 1 <= bs -> 0 <= r < size ->
    da_accepted size (D bs r) /\
    da_dim (D bs r) = dim /\ da_dof (D bs r) = bs /\
    (forall d, 0 <= d < 3 -> da_sizes (D bs r) d = N d) /\
    (forall q d, 0 <= q < size -> 0 <= d < 3 ->
       da_procs (D bs r) d = da_procs (D bs q) d /\ da_sizes (D bs r) d = da_sizes (D bs q) d /\ da_ranges (D bs r) d = da_ranges (D bs q) d) /\
    (forall q d, 0 <= q < size -> 0 <= d < 3 -> da_start (D bs r) q d = fst (rg (LY q) d) /\ da_width (D bs r) q d = snd (rg (LY q) d)).
  Proof using S Hrg HT Hw Hrg' HN Hgs.
    intros bs r Hbs Hr. destruct (setup_form _ _ _ _ _ _ _ _ S) as (n & Hn & HL & Hdim & Hz & HP & HLY).
    (* what every rank passes *)
    assert (A1 : forall q d, 0 <= q < size -> 0 <= d < 3 -> da_procs (D bs q) d = pad 1 n d).
    { intros q d Hq Hd. unfold D, create_dmda; cbn [da_procs]. rewrite (HLY q Hq). unfold layout_of; cbn [ly_procs].
      destruct (d <? dim) eqn:E; [reflexivity|]. unfold pad. rewrite nth_overflow by lia. reflexivity. }
    assert (A2 : forall q d, 0 <= q < size -> 0 <= d < 3 -> da_sizes (D bs q) d = N d).
    { intros q d Hq Hd. unfold D, create_dmda; cbn [da_sizes]. destruct (d <? dim) eqn:E; [rewrite (HLY q Hq); apply Hgs; lia|symmetry; apply HN; lia]. }
    assert (A3 : forall q d, 0 <= q < size -> 0 <= d < dim -> da_ranges (D bs q) d = map (w d (pad 1 n d)) (zseq 0 (pad 1 n d))).
    { intros q d Hq Hd. unfold D, create_dmda; cbn [da_ranges]. replace (d <? dim) with true by lia.
      assert (Q1 : ly_procs (LY q) = pad 1 n) by (rewrite (HLY q Hq); reflexivity).
      assert (Q2 : ly_coord (LY q) = pad 0 (rank_coords n q)) by (rewrite (HLY q Hq); reflexivity).
      rewrite Q1. apply map_ext_in. intros c Hc. apply in_zseq in Hc.
      assert (LR : 0 <= line_rank LY q d c < size /\ pad 0 (rank_coords n (line_rank LY q d c)) d = c).
      { pose proof (line_coords n (Z.to_nat d) q c Hn ltac:(lia) ltac:(lia)) as LC. cbv zeta in LC.
        assert (HS' : (if d =? 0 then 1 else if d =? 1 then ly_procs (LY q) 0 else ly_procs (LY q) 0 * ly_procs (LY q) 1) = strides n (Z.to_nat d)).
        { rewrite Q1. apply DrawProps.strides_pad; lia. }
        unfold line_rank. rewrite HS', Q2. rewrite <- Hz. apply LC. unfold pad in Hc |- *. lia. }
      destruct LR as [L1 L2]. rewrite (HLY _ L1), (Hrg n _ d Hd). cbn [snd]. rewrite L2. reflexivity. }
    assert (A3' : forall q d, dim <= d < 3 -> da_ranges (D bs q) d = [1]).
    { intros q d Hd. unfold D, create_dmda; cbn [da_ranges]. replace (d <? dim) with false by lia. reflexivity. }
    assert (A4 : forall d, dim <= d < 3 -> pad 1 n d = 1) by (intros d Hd; unfold pad; rewrite nth_overflow by lia; reflexivity).
    destruct (coords_pad n r Hn ltac:(lia) ltac:(lia)) as (_ & _ & _ & Hprod).
    assert (A5 : forall q d, 0 <= q < size -> 0 <= d < 3 -> da_coord (D bs r) q d = pad 0 (rank_coords n q) d).
    { intros q d Hq Hd. destruct (coords_pad n q Hn ltac:(lia) ltac:(lia)) as (C0 & C1 & C2 & _).
      unfold da_coord. rewrite !A1 by (auto; lia). assert (Ed : d = 0 \/ d = 1 \/ d = 2) by lia.
      destruct Ed as [-> | [-> | ->]]; [rewrite C0|rewrite C1|rewrite C2]; reflexivity. }
    assert (A6 : forall q d, 0 <= q < size -> 0 <= d < dim -> 0 <= pad 0 (rank_coords n q) d < pad 1 n d)
      by (intros q d Hq Hd; apply (pad_coords n q d Hn); lia).
    assert (A7 : forall q d, 0 <= q < size -> dim <= d < 3 -> pad 0 (rank_coords n q) d = 0).
    { intros q d Hq Hd. unfold pad. rewrite nth_overflow; [reflexivity|]. rewrite rank_coords_length. lia. }
    split; [|split; [reflexivity|split; [reflexivity|split; [intros d Hd; apply A2; auto|split]]]].
    - split; [exact Hdim|]. split; [exact Hbs|]. rewrite !A1 by (auto; lia). split; [lia|].
      intros d Hd. rewrite A1, A2 by auto. destruct (Z.lt_ge_cases d dim) as [E|E].
      + specialize (HP d ltac:(lia)). pose proof (HT d (pad 1 n d) ltac:(lia) HP) as TT. rewrite A3 by (auto; lia).
        assert (W1 : forall c, 0 <= c < pad 1 n d -> 1 <= w d (pad 1 n d) c).
        { intros c Hc. pose proof (line_coords n (Z.to_nat d) r c Hn ltac:(lia) ltac:(lia) ltac:(unfold pad in Hc; exact Hc)) as [L1 L2].
          set (q := r + (c - nth (Z.to_nat d) (rank_coords n r) 0) * strides n (Z.to_nat d)) in *.
          pose proof (Hw q d ltac:(lia) ltac:(lia)) as K. rewrite (HLY q ltac:(lia)), (Hrg n _ d ltac:(lia)) in K. cbn [snd] in K.
          unfold pad at 2 in K. rewrite L2 in K. exact K. }
        split; [split; [lia|]|].
        * rewrite <- (tiles_total _ _ _ _ TT).
          assert (G : forall l a, (forall c, In c l -> 1 <= w d (pad 1 n d) c) -> a + Z.of_nat (length l) <= fold_left Z.add (map (w d (pad 1 n d)) l) a).
          { clear. induction l as [|c l IH]; intros a H; cbn [length map fold_left]; [lia|].
            pose proof (H c (or_introl eq_refl)). specialize (IH (a + w d (pad 1 n d) c) (fun c Hc => H c (or_intror Hc))). lia. }
          assert (G' : forall c, In c (zseq 0 (pad 1 n d)) -> 1 <= w d (pad 1 n d) c).
          { clear - W1. intros c Hc. apply in_zseq in Hc. apply W1. destruct Hc as [Hc1 Hc2]. rewrite Z.add_0_l in Hc2. split; assumption. }
          pose proof (G (zseq 0 (pad 1 n d)) 0 G') as K. rewrite length_zseq in K. clear - K HP. lia.
        * split; [rewrite map_length, length_zseq; clear - HP; lia|]. split; [apply (tiles_total _ _ _ _ TT)|].
          apply Forall_forall. intros x Hx. apply in_map_iff in Hx. destruct Hx as (c & <- & Hc). apply in_zseq in Hc.
          destruct Hc as [Hc1 Hc2]. rewrite Z.add_0_l in Hc2. specialize (W1 c (conj Hc1 Hc2)). change (da_swidth (D bs r)) with 0. clear - W1. lia.
      + rewrite A3' by lia. rewrite (A4 d ltac:(lia)), (HN d ltac:(lia)). split; [lia|]. split; [reflexivity|]. split; [reflexivity|].
        constructor; [change (da_swidth (D bs r)) with 0; lia|constructor].
    - intros q d Hq Hd. rewrite (A1 r), (A1 q), (A2 r), (A2 q) by auto. split; [reflexivity|]. split; [reflexivity|].
      destruct (Z.lt_ge_cases d dim); [rewrite !A3 by (auto; lia)|rewrite !A3' by lia]; reflexivity.
    - intros q d Hq Hd. unfold da_start, da_width. rewrite A5 by auto. destruct (Z.lt_ge_cases d dim) as [E|E].
      + rewrite A3 by (auto; lia). specialize (A6 q d Hq ltac:(lia)). specialize (HP d ltac:(lia)).
        rewrite (HLY q Hq), (Hrg n _ d ltac:(lia)). cbn [fst snd]. split.
        * apply (tiles_prefix _ (N d) (s d (pad 1 n d))); [apply HT; [lia|exact HP]|exact A6].
        * rewrite (nth_indep _ 0 (w d (pad 1 n d) 0)) by (rewrite map_length, length_zseq; lia). rewrite map_nth, nth_zseq by lia. f_equal. lia.
      + rewrite A3', A7 by lia. rewrite (HLY q Hq), Hrg' by lia. split; reflexivity.
  Qed.
End Dm.
