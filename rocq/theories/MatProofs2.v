(** The nonzero structure of IGACreateMat covers the assembled entries. *)
From Coq Require Import ZArith List Bool Lia Reals.
From Coq Require Import ZifyBool ZifyNat.
From Verif Require Import Prelude AxisModel AxisSpec AxisProofs SetupModel SetupProofs Box GridModel GridSpec GridProofs GridProofs2 GridProps
  ElemModel ElemSpec MatModel MatSpec MatProofs.
Import ListNotations.
Open Scope Z_scope.

Lemma index3d_lin : forall s w t, index3d s w t = lin w (tsub s t).
Proof. intros s w [[i j] k]. unfold index3d, lin, tsub. ring. Qed.

Lemma in_unblock : forall bs l x, 1 <= bs -> (In x (unblock bs l) <-> exists n c, In n l /\ 0 <= c < bs /\ x = bs * n + c).
Proof.
  intros bs l x Hbs. unfold unblock. rewrite in_flat_map. split.
  - intros (n & Hn & H). apply in_map_iff in H. destruct H as (c & <- & Hc). apply in_zseq in Hc. exists n, c. repeat split; auto; lia.
  - intros (n & c & Hn & Hc & ->). exists n. split; auto. apply in_map_iff. exists c. split; [lia|]. apply in_zseq. lia.
Qed.

Lemma zlen_box : forall s w, Z.of_nat (length (box s w)) = Z.max 0 (w 0) * Z.max 0 (w 1) * Z.max 0 (w 2).
Proof.
  intros s w.
  assert (E : forall d, zseq (s d) (w d) = zseq (s d) (Z.max 0 (w d))).
  { intros d. unfold zseq. replace (Z.to_nat (Z.max 0 (w d))) with (Z.to_nat (w d)) by lia. reflexivity. }
  assert (E2 : box s w = box s (fun d => Z.max 0 (w d))) by (unfold box; rewrite (E 0), (E 1), (E 2); reflexivity).
  rewrite E2, len_box3; [reflexivity|]. intros d _. lia.
Qed.

Lemma prod3_le : forall a b c x y z, 0 <= a <= x -> 0 <= b <= y -> 0 <= c <= z -> a * b * c <= x * y * z.
Proof.
  intros a b c x y z Ha Hb Hc. apply Z.mul_le_mono_nonneg; [apply Z.mul_nonneg_nonneg; lia| |lia|lia].
  apply Z.mul_le_mono_nonneg; lia.
Qed.

Lemma mod_diff : forall n a b, 1 <= n -> (a - b) mod n = 0 -> a mod n = b mod n.
Proof.
  intros n a b Hn H. apply Z.mod_divide in H; [|lia]. destruct H as [q Hq].
  replace a with (b + q * n) by lia. apply Z.mod_add. lia.
Qed.

Section Count.
  Context {O : KnotOrd}.
  Variables (dim : Z) (axes : Z -> axis O).
  Hypothesis Hdim : 1 <= dim <= 3.
  Hypothesis Hax : forall d, 0 <= d < dim -> exists l, wf (axes d) l.

  (** ** C28 *)
  Lemma maxnnz_prod : maxnnz dim axes = fold_right Z.mul 1 (map (fun d => 2 * ax_p (axes d) + 1) (zseq 0 dim)).
  Proof.
    unfold maxnnz. assert (E : dim = 1 \/ dim = 2 \/ dim = 3) by lia.
    destruct E as [-> | [-> | ->]].
    - change (zseq 0 1) with [0]. cbn [map fold_left fold_right]. ring.
    - change (zseq 0 2) with [0; 1]. cbn [map fold_left fold_right]. ring.
    - change (zseq 0 3) with [0; 1; 2]. cbn [map fold_left fold_right]. ring.
  Qed.



  Lemma column_count : forall start shape A, (forall d, 0 <= d < dim -> 0 <= coord A d <= ax_m (axes d) - ax_p (axes d) - 1) ->
    Z.of_nat (length (column_indices dim axes start shape A)) <= maxnnz dim axes.
  Proof.
    intros start shape A HA. unfold column_indices. rewrite map_length, zlen_box, maxnnz_prod.
    assert (K : forall d, 0 <= d < dim ->
      0 <= Z.max 0 (col_last dim axes start shape A d - col_first dim axes start A d + 1) <= 2 * ax_p (axes d) + 1).
    { intros d Hd. destruct (Hax d Hd) as (l & L).
      destruct (stencil_bounds (axes d) l L (coord A d) (HA d Hd)) as (B1 & B2 & _).
      destruct (dir_facts (axes d) l L) as (Hp & _).
      unfold col_last, col_first, dir_stencil. replace (d <? dim) with true by lia. change (coord_of A d) with (coord A d). lia. }
    assert (K1 : forall d, dim <= d -> Z.max 0 (col_last dim axes start shape A d - col_first dim axes start A d + 1) = 1).
    { intros d Hd. unfold col_last, col_first. replace (d <? dim) with false by lia. lia. }
    assert (E : dim = 1 \/ dim = 2 \/ dim = 3) by lia. clear HA.
    destruct E as [E | [E | E]]; rewrite E in *.
    - rewrite (K1 1), (K1 2) by lia. pose proof (K 0 ltac:(lia)). change (zseq 0 1) with [0]; cbn [map fold_right].
      lia.
    - rewrite (K1 2) by lia. pose proof (K 0 ltac:(lia)) as K0. pose proof (K 1 ltac:(lia)) as K2.
      change (zseq 0 2) with [0; 1]; cbn [map fold_right].
      rewrite !Z.mul_1_r.
      apply Z.mul_le_mono_nonneg; lia.
    - pose proof (K 0 ltac:(lia)) as K0. pose proof (K 1 ltac:(lia)) as K2. pose proof (K 2 ltac:(lia)) as K3.
      change (zseq 0 3) with [0; 1; 2]; cbn [map fold_right].
      rewrite Z.mul_1_r, Z.mul_assoc.
      apply prod3_le; auto.
  Qed.

End Count.

Section Pat.
  Context {O : KnotOrd}.
  Variables (size dim dof : Z) (axes : Z -> axis O) (N : Z -> Z) (G : Z -> grid).
  Hypothesis Hdim : 1 <= dim <= 3.
  Hypothesis Hax : forall d, 0 <= d < dim -> exists l, wf (axes d) l /\ ends_nonempty (ax_p (axes d)) (ax_m (axes d)) (ax_U (axes d)).
  Hypothesis HN : forall d, N d = if d <? dim then ax_nnp (axes d) else 1.
  Hypothesis W : grid_world size dof N G.

  (** ** the auxiliary map *)
  Lemma mat_ltog_node : forall r t, 0 <= r < size ->
    in_box (mat_gstart dim axes (gr_lstart (G r))) (mat_gwidth dim axes (gr_lstart (G r)) (gr_lwidth (G r))) t ->
    (let '(i, j, k) := t in - N 0 <= i /\ - N 1 <= j /\ - N 2 <= k) ->
    let g := mat_grid dim axes (G r) in
    mat_ltog dim axes size G r (index3d (gr_gstart g) (gr_gwidth g) t) = ao size G (lin N (modbox N t)).
  Proof.
    intros r [[i j] k] Hr Hin Hlow g. unfold mat_ltog, ghost_indices. rewrite index3d_lin. fold g.
    unfold in_box in Hin. change (mat_gstart dim axes (gr_lstart (G r))) with (gr_gstart g) in Hin.
    change (mat_gwidth dim axes (gr_lstart (G r)) (gr_lwidth (G r))) with (gr_gwidth g) in Hin.
    unfold tsub.
    assert (E : nth (Z.to_nat (lin (gr_gwidth g) (i - gr_gstart g 0, j - gr_gstart g 1, k - gr_gstart g 2)))
                    (map (fun t => lin (gr_sizes g) (wrap (gr_sizes g) t)) (box (gr_gstart g) (gr_gwidth g))) (-1)
                = lin (gr_sizes g) (wrap (gr_sizes g) (i, j, k))).
    { assert (Hlt : lt (Z.to_nat (lin (gr_gwidth g) (i - gr_gstart g 0, j - gr_gstart g 1, k - gr_gstart g 2))) (length (box (gr_gstart g) (gr_gwidth g)))).
      { pose proof (lin_range (gr_gwidth g) (i - gr_gstart g 0) (j - gr_gstart g 1) (k - gr_gstart g 2) ltac:(lia) ltac:(lia) ltac:(lia)) as HL.
        pose proof (zlen_box (gr_gstart g) (gr_gwidth g)) as HZ. rewrite !Z.max_r in HZ by lia. unfold vol in HL.
        set (x := lin _ _) in *. set (y := gr_gwidth g 0 * gr_gwidth g 1 * gr_gwidth g 2) in *. clearbody x y. lia. }
      rewrite nth_indep with (d' := lin (gr_sizes g) (wrap (gr_sizes g) (0,0,0))) by (rewrite map_length; exact Hlt).
      rewrite (map_nth (fun t => lin (gr_sizes g) (wrap (gr_sizes g) t))). rewrite nth_box by lia.
      do 2 f_equal. f_equal; [f_equal|]; lia. }
    rewrite E. f_equal. change (gr_sizes g) with (gr_sizes (G r)).
    rewrite (w_lin _ _ _ _ W) by auto. rewrite (w_wrap _ _ _ _ W) by auto. rewrite (wrap_mod size dof N G W) by exact Hlow. reflexivity.
  Qed.

  (** ** rows and columns *)
  (** direction d: row coordinate t of rank r, functions A = t (mod N), B active on a common element *)
  Definition coupled (d A B : Z) : Prop :=
    if d <? dim then exists k, is_element (ax_p (axes d)) (ax_m (axes d)) (ax_U (axes d)) k /\
                       active (ax_p (axes d)) A k /\ active (ax_p (axes d)) B k
    else A = 0 /\ B = 0.

  Hypothesis Hper : forall d, 0 <= d < dim -> ax_periodic (axes d) = true ->
    periodic_pattern (ax_p (axes d)) (ax_m (axes d)) (ax_nnp (axes d)) (ax_U (axes d)).

  Lemma dir_col : forall r d t A B, 0 <= r < size -> 0 <= d < 3 ->
    gr_lstart (G r) d <= t < gr_lstart (G r) d + gr_lwidth (G r) d -> t = A mod N d -> coupled d A B ->
    let gs := mat_gstart dim axes (gr_lstart (G r)) in let gw := mat_gwidth dim axes (gr_lstart (G r)) (gr_lwidth (G r)) in
    exists b', (b' - B) mod N d = 0 /\ - N d <= b' /\ (A < N d -> b' = B) /\
      gs d <= b' < gs d + gw d /\
      (forall T, coord T d = t -> col_first dim axes gs T d <= b' <= col_last dim axes gs gw T d).
  Proof.
    intros r d t A B Hr Hd Ht HtA Hc gs gw. pose proof (w_dir _ _ _ _ W r d Hr Hd) as (W1 & W2 & W3 & W4 & W5).
    pose proof (HN d) as HNd.
    unfold coupled in Hc. destruct (d <? dim) eqn:E.
    - destruct Hc as (k & Hk & HA & HB). destruct (Hax d ltac:(lia)) as (l & L & He).
      destruct (coupling (axes d) l L He (Hper d ltac:(lia)) k A B Hk HA HB) as (b' & M1 & M2 & M3 & M4 & M5).
      rewrite <- HNd in *. rewrite <- HtA in *.
      exists b'. split; [exact M1|]. split; [exact M2|]. split; [exact M5|]. clear M1 M5 HtA HA HB Hk.
      pose proof (M3 (gr_lstart (G r) d) ltac:(lia)) as Q1. pose proof (M4 (gr_lstart (G r) d + gr_lwidth (G r) d - 1) ltac:(lia)) as Q2.
      pose proof (M3 t ltac:(lia)) as Q3. pose proof (M4 t ltac:(lia)) as Q4.
      assert (Egs : gs d = fst (stencil (ax_periodic (axes d)) (ax_p (axes d)) (ax_m (axes d)) (ax_U (axes d)) (gr_lstart (G r) d)))
        by (unfold gs, mat_gstart, dir_stencil; rewrite E; reflexivity).
      assert (Egw : gs d + gw d = snd (stencil (ax_periodic (axes d)) (ax_p (axes d)) (ax_m (axes d)) (ax_U (axes d)) (gr_lstart (G r) d + gr_lwidth (G r) d - 1)) + 1)
        by (unfold gw, mat_gwidth, dir_stencil; rewrite E; unfold gs; lia).
      split; [lia|]. intros T HT. unfold col_first, col_last, dir_stencil. rewrite E. change (coord_of T d) with (coord T d). rewrite HT. lia.
    - destruct Hc as [-> ->]. exists 0. rewrite HNd. split; [reflexivity|]. split; [lia|]. split; [reflexivity|].
      unfold gs, gw, mat_gstart, mat_gwidth. rewrite E. split; [lia|].
      intros T HT. unfold col_first, col_last. rewrite E. lia.
  Qed.

  Lemma row_coupled : forall d t, 0 <= d < 3 -> 0 <= t < N d -> coupled d t t.
  Proof.
    intros d t Hd Ht. unfold coupled. pose proof (HN d) as HNd. destruct (d <? dim) eqn:E; [|lia].
    destruct (Hax d ltac:(lia)) as (l & L & He). destruct (dir_facts (axes d) l L) as (_ & _ & _ & Hb & _).
    destruct (active_somewhere (axes d) l L He t ltac:(lia)) as (k & Hk & HA). exists k. auto.
  Qed.

  Lemma row_index : forall r T, 0 <= r < size -> in_box (gr_lstart (G r)) (gr_lwidth (G r)) T ->
    mat_row dim axes size G r T = ao size G (lin N T).
  Proof.
    intros r T Hr HT. pose proof (own_in_grid _ _ _ _ W r T Hr HT) as HTN.
    destruct T as [[i j] k]. unfold in_box, zero3 in HT, HTN.
    assert (K : forall d t, 0 <= d < 3 -> 0 <= t < N d -> gr_lstart (G r) d <= t < gr_lstart (G r) d + gr_lwidth (G r) d ->
      mat_gstart dim axes (gr_lstart (G r)) d <= t < mat_gstart dim axes (gr_lstart (G r)) d + mat_gwidth dim axes (gr_lstart (G r)) (gr_lwidth (G r)) d).
    { intros d t Hd H1 H2. destruct (dir_col r d t t t Hr Hd H2 ltac:(rewrite Z.mod_small; lia) (row_coupled d t Hd H1)) as (b' & _ & _ & E & Hb & _).
      rewrite (E ltac:(lia)) in Hb. exact Hb. }
    unfold mat_row. rewrite (mat_ltog_node r (i, j, k) Hr).
    - unfold modbox. rewrite !Z.mod_small by lia. reflexivity.
    - unfold in_box. split; [apply K; lia|]. split; apply K; lia.
    - lia.
  Qed.


  Lemma col_covered : forall r A B, 0 <= r < size ->
    in_box (gr_lstart (G r)) (gr_lwidth (G r)) (modbox N A) -> (forall d, 0 <= d < 3 -> coupled d (coord A d) (coord B d)) ->
    In (ao size G (lin N (modbox N B))) (mat_cols dim axes size G r (modbox N A)).
  Proof.
    intros r [[i j] k] [[i' j'] k'] Hr Hin Hc.
    pose proof (w_N _ _ _ _ W 0 ltac:(lia)) as P0. pose proof (w_N _ _ _ _ W 1 ltac:(lia)) as P1. pose proof (w_N _ _ _ _ W 2 ltac:(lia)) as P2.
    pose proof Hin as Hin'. unfold in_box, modbox in Hin'. destruct Hin' as (I0 & I1 & I2).
    pose proof (Hc 0 ltac:(lia)) as C0. pose proof (Hc 1 ltac:(lia)) as C1. pose proof (Hc 2 ltac:(lia)) as C2.
    destruct (dir_col r 0 _ i i' Hr ltac:(lia) I0 eq_refl C0) as (x & X1 & X2 & _ & X3 & X4).
    destruct (dir_col r 1 _ j j' Hr ltac:(lia) I1 eq_refl C1) as (y & Y1 & Y2 & _ & Y3 & Y4).
    destruct (dir_col r 2 _ k k' Hr ltac:(lia) I2 eq_refl C2) as (z & Z1 & Z2 & _ & Z3 & Z4).
    specialize (X4 (modbox N (i,j,k)) eq_refl). specialize (Y4 (modbox N (i,j,k)) eq_refl). specialize (Z4 (modbox N (i,j,k)) eq_refl).
    unfold mat_cols. apply in_map_iff. exists (index3d (gr_gstart (mat_grid dim axes (G r))) (gr_gwidth (mat_grid dim axes (G r))) (x, y, z)).
    split.
    - rewrite (mat_ltog_node r (x, y, z) Hr); [|unfold in_box; auto|lia].
      unfold modbox. rewrite (mod_diff (N 0) x i'), (mod_diff (N 1) y j'), (mod_diff (N 2) z k') by (auto; lia). reflexivity.
    - unfold column_indices. apply in_map. apply In_box. unfold in_box. cbn [mat_grid gr_gstart gr_gwidth]. lia.
  Qed.

  Lemma pattern_covered : forall A B c d, (forall i, 0 <= i < 3 -> coupled i (coord A i) (coord B i)) -> 0 <= c < dof -> 0 <= d < dof ->
    exists q, 0 <= q < size /\ dof * off G q <= dof * ao size G (lin N (modbox N A)) + c < dof * off G (q+1) /\
      In (dof * ao size G (lin N (modbox N A)) + c, dof * ao size G (lin N (modbox N B)) + d)
         (mat_pattern dim axes size G dof q).
  Proof.
    intros A B c d HC Hc Hd. pose proof (w_bs _ _ _ _ W) as Hbs.
    assert (HA : in_box zero3 N (modbox N A)) by apply (modbox_in _ _ _ _ W).
    assert (HB : in_box zero3 N (modbox N B)) by apply (modbox_in _ _ _ _ W).
    pose proof (ao_range _ _ _ _ W _ (lin_in_range N _ HA)) as RA. pose proof (ao_range _ _ _ _ W _ (lin_in_range N _ HB)) as RB.
    pose proof W as W'. destruct W as (_ & _ & _ & _ & HU). destruct (HU _ HA) as (q & [Hq Hin] & _).
    exists q. split; [auto|].
    assert (Hoff : off G q <= ao size G (lin N (modbox N A)) < off G (q+1)).
    { destruct (C15_numbering_is_permutation size dof N G W') as (_ & _ & _ & _ & _ & _ & K & _). apply K; auto. }
    split.
    - set (x := ao size G (lin N (modbox N A))) in *. clearbody x.
      assert (dof * off G q <= dof * x) by (apply Z.mul_le_mono_nonneg_l; lia).
      assert (dof * (x + 1) <= dof * off G (q+1)) by (apply Z.mul_le_mono_nonneg_l; lia). lia.
    - unfold mat_pattern. apply filter_In. split.
      + apply in_flat_map. exists (modbox N A). split; [apply In_box; auto|]. apply in_prod.
        * apply in_unblock; auto. exists (ao size G (lin N (modbox N A))), c. split; [left; apply row_index; auto|]. auto.
        * apply in_unblock; auto. exists (ao size G (lin N (modbox N B))), d. split; [apply col_covered; auto|]. auto.
      + cbn [fst snd]. assert (0 <= dof * ao size G (lin N (modbox N A))) by (apply Z.mul_nonneg_nonneg; lia).
        assert (0 <= dof * ao size G (lin N (modbox N B))) by (apply Z.mul_nonneg_nonneg; lia). lia.
  Qed.
End Pat.

Lemma entry_node : forall size bs (N : Z -> Z) (G : Z -> grid), grid_world size bs N G ->
  forall r t, 0 <= r < size -> (forall d, 0 <= d < 3 -> - N d <= gr_gstart (G r) d) ->
  in_box (gr_gstart (G r)) (gr_gwidth (G r)) t ->
  lgmap size G r (lin (gr_gwidth (G r)) (tsub (gr_gstart (G r)) t)) = ao size G (lin N (modbox N t)).
Proof.
  intros size bs N G W r [[i j] k] Hr Hg HC. unfold in_box in HC. unfold tsub.
  rewrite (lgmap_coords _ _ _ _ W) by (auto; lia). do 4 f_equal; [f_equal|]; lia.
Qed.

(** ** preallocation *)
Lemma filter_split_length : forall A (f : A -> bool) l, length l = (length (filter f l) + length (filter (fun x => negb (f x)) l))%nat.
Proof. intros A f l. induction l as [|a l IH]; cbn; auto. destruct (f a); cbn; lia. Qed.

Lemma prealloc_enough : forall (O : KnotOrd) dim (axes : Z -> axis O) bs n M lo hi cols L,
  hi - lo = n * bs -> 0 <= lo -> hi <= M * bs -> 0 <= n * bs ->
  NoDup L -> (forall c, In c L -> In c cols /\ 0 <= c < M * bs) ->
  let inside := fun c => (lo <=? c) && (c <? hi) in
  Z.of_nat (length (filter inside L)) <= fst (prealloc dim axes bs n M lo hi cols) /\
  Z.of_nat (length (filter (fun c => negb (inside c)) L)) <= snd (prealloc dim axes bs n M lo hi cols).
Proof.
  intros O dim axes bs n M lo hi cols L Hw Hlo Hhi Hn HL HI inside.
  assert (K1 : Z.of_nat (length (filter inside L)) <= Z.of_nat (length (filter inside cols))).
  { apply inj_le. apply NoDup_incl_length; [apply NoDup_filter; auto|]. intros c Hc. apply filter_In in Hc. apply filter_In.
    split; [apply HI|]; tauto. }
  assert (K2 : Z.of_nat (length (filter (fun c => negb (inside c)) L)) <= Z.of_nat (length (filter (fun c => negb (inside c)) cols))).
  { apply inj_le. apply NoDup_incl_length; [apply NoDup_filter; auto|]. intros c Hc. apply filter_In in Hc. apply filter_In.
    split; [apply HI|]; tauto. }
  assert (K3 : Z.of_nat (length (filter inside L)) <= n * bs).
  { rewrite <- Hw. replace (hi - lo) with (Z.of_nat (length (zseq lo (hi - lo)))) by (rewrite length_zseq; lia).
    apply inj_le. apply NoDup_incl_length; [apply NoDup_filter; auto|]. intros c Hc. apply filter_In in Hc. apply in_zseq.
    destruct Hc as [_ Hc]. unfold inside in Hc. lia. }
  assert (K4 : Z.of_nat (length (filter (fun c => negb (inside c)) L)) <= M * bs - n * bs).
  { assert (E : incl (filter (fun c => negb (inside c)) L) (zseq 0 lo ++ zseq hi (M * bs - hi))).
    { intros c Hc. apply filter_In in Hc. destruct Hc as [Hc1 Hc2]. destruct (HI c Hc1) as [_ Hr].
      apply in_or_app. unfold inside in Hc2. destruct (Z.lt_ge_cases c lo); [left|right]; apply in_zseq; [lia|]. destruct (Z.lt_ge_cases c hi); [exfalso; lia|]. lia. }
    pose proof (NoDup_incl_length (NoDup_filter _ HL) E) as Q. rewrite app_length, !length_zseq in Q. revert Q. generalize (length (filter (fun c => negb (inside c)) L)). intros x Q. generalize dependent (M * bs). generalize dependent (n * bs). intros. lia. }
  unfold prealloc. cbv zeta. fold inside.
  change (filter (fun c => negb ((lo <=? c) && (c <? hi))) cols) with (filter (fun c => negb (inside c)) cols).
  clearbody inside. destruct (M <? maxnnz dim axes); cbn [fst snd]; split; [apply Z.min_glb| apply Z.min_glb| |]; assumption.
Qed.
