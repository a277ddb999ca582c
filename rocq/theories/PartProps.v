(** Property theorems about process grids and index distribution: C08, C09, C10, C56. *)
From Coq Require Import ZArith List Bool Lia.
From Verif Require Import Prelude PartModel PartSpec PartProofs.
Import ListNotations.
Open Scope Z_scope.

(** * C08 *)
(** [g2], [g3] are whatever nonnegative integers the floating point roots round to; [N] the element
    counts, [user] the requested process counts (<1: free). *)
Theorem C08_partition_is_a_process_grid :
  forall (g2 : Z -> Z -> Z -> Z) (g3 : Z -> Z -> Z -> Z -> Z) (maxint size rank : Z) (N user n c : list Z),
  (forall a b c, 0 <= g2 a b c) -> (forall a b c d, 0 <= g3 a b c d) ->
  partition g2 g3 maxint size rank N user = (Ok, n, c) ->
  length n = length N /\ zprod n = size /\ Forall (fun nk => 1 <= nk) n /\
  Forall2 (fun uk nk => 1 <= uk -> nk = uk) user n /\
  Forall2 (fun Nk nk => nk <= Nk) N n.
Proof.
  intros g2 g3 maxint size rank N user n c H2 H3 H.
  destruct (partition_spec g2 H2 g3 H3 _ _ _ _ _ _ _ H) as (A & B & C & D & E & F & G & I & J).
  repeat (split; [assumption|]). assumption.
Qed.
Print Assumptions C08_partition_is_a_process_grid.

Example C08_example :
  (forall a b c, 0 <= exact_g2 a b c) /\
  partition exact_g2 exact_g3 (2^31-1) 12 7 [10;20;5] [0;0;0] = (Ok, [2;6;1], [1;3;0]) /\
  partition exact_g2 exact_g3 (2^31-1) 12 7 [10;20;5] [0;0;3] = (Ok, [2;2;3], [1;1;1]) /\
  fst (fst (partition exact_g2 exact_g3 (2^31-1) 12 7 [10;20;5] [5;0;0])) = ErrRange.
Proof.
  split; [|vm_compute; repeat split].
  intros a b c. unfold exact_g2. pose proof (Z.sqrt_nonneg (4*b*a/c)). apply Z.div_pos; lia.
Qed.

(** Counts all fixed by the user (one to three directions): accepted exactly when they multiply to the size and fit. *)
Theorem C08_fixed_counts_accepted :
  forall g2 g3 (maxint size rank : Z) (N user : list Z),
  0 <= rank < size -> (1 <= length N <= 3)%nat -> length user = length N -> Forall (fun u => 1 <= u) user ->
  zprod user = size -> Forall2 (fun Nk nk => nk <= Nk) N user ->
  exists c, partition g2 g3 maxint size rank N user = (Ok, user, c).
Proof.
  intros g2 g3 maxint size rank N user Hr HL HU F Hp HF.
  unfold partition. replace (size <? 1) with false by lia. replace ((rank <? 0) || (size <=? rank)) with false by lia.
  assert (E : part_switch g2 g3 maxint size N user = Some user).
  { clear - HL HU F. destruct N as [|a [|b [|c [|e N]]]]; cbn [length] in HL, HU; try lia;
      destruct user as [|x [|y [|z [|w user]]]]; cbn [length] in HU; try lia;
      repeat (apply Forall_cons_iff in F; let K := fresh in destruct F as [K F]);
      cbn [part_switch]; unfold Part3D, Part2D;
      repeat match goal with H : 1 <= ?x |- context[?x <? 1] => replace (x <? 1) with false by lia end; reflexivity. }
  rewrite E, Hp, Z.eqb_refl. cbn [negb].
  replace (existsb (fun Nn => fst Nn <? snd Nn) (combine N user)) with false; [eexists; reflexivity|].
  symmetry. clear - HF. induction HF; cbn [combine existsb fst snd]; auto. rewrite IHHF. replace (x <? y) with false by lia. reflexivity.
Qed.
Print Assumptions C08_fixed_counts_accepted.

(** One free direction: it gets the remaining factor. *)
Theorem C08_one_free_direction :
  forall g2 g3 (maxint size rank : Z) (M N P m n p u : Z), 0 <= rank < size -> u < 1 ->
  1 <= m <= M -> 1 <= n <= N -> 1 <= p <= P ->
  (m = size -> exists c, partition g2 g3 maxint size rank [M] [u] = (Ok, [m], c)) /\
  (m * n = size ->
     (exists c, partition g2 g3 maxint size rank [M; N] [u; n] = (Ok, [m; n], c)) /\
     (exists c, partition g2 g3 maxint size rank [M; N] [m; u] = (Ok, [m; n], c))) /\
  (m * n * p = size ->
     (exists c, partition g2 g3 maxint size rank [M; N; P] [u; n; p] = (Ok, [m; n; p], c)) /\
     (exists c, partition g2 g3 maxint size rank [M; N; P] [m; u; p] = (Ok, [m; n; p], c)) /\
     (exists c, partition g2 g3 maxint size rank [M; N; P] [m; n; u] = (Ok, [m; n; p], c))).
Proof.
  intros g2 g3 maxint size rank M N P m n p u Hr Hu Hm Hn Hp.
  unfold partition. replace (size <? 1) with false by lia. replace ((rank <? 0) || (size <=? rank)) with false by lia.
  cbn [part_switch]. unfold Part3D, Part2D.
  replace (u <? 1) with true by lia. replace (m <? 1) with false by lia. replace (n <? 1) with false by lia. replace (p <? 1) with false by lia.
  cbn [andb]. cbn [zprod fold_right combine existsb fst snd].
  assert (FM : (M <? m) = false) by lia. assert (FN : (N <? n) = false) by lia. assert (FP : (P <? p) = false) by lia.
  split; [|split].
  - intros E. rewrite <- E. rewrite !Z.mul_1_r, Z.eqb_refl. cbn [negb]. rewrite FM. cbn [orb]. repeat match goal with |- _ /\ _ => split end; eexists; reflexivity.
  - intros E. assert (D1 : size / n = m) by (rewrite <- E; apply Z.div_mul; lia).
    assert (D2 : size / m = n) by (rewrite <- E, Z.mul_comm; apply Z.div_mul; lia).
    rewrite D1, D2. replace (m * (n * 1)) with size by lia. rewrite Z.eqb_refl. cbn [negb]. rewrite FM, FN. cbn [orb]. repeat match goal with |- _ /\ _ => split end; eexists; reflexivity.
  - intros E. assert (D1 : size / (n * p) = m) by (rewrite <- E, <- Z.mul_assoc; apply Z.div_mul; nia).
    assert (D2 : size / (m * p) = n) by (rewrite <- E; replace (m*n*p) with (n*(m*p)) by ring; apply Z.div_mul; nia).
    assert (D3 : size / (m * n) = p) by (rewrite <- E, Z.mul_comm; apply Z.div_mul; nia).
    rewrite D1, D2, D3. replace (m * (n * (p * 1))) with size by lia. rewrite Z.eqb_refl. cbn [negb]. rewrite FM, FN, FP. cbn [orb]. repeat match goal with |- _ /\ _ => split end; eexists; reflexivity.
Qed.
Print Assumptions C08_one_free_direction.

Example C08_fixed_example :
  partition exact_g2 exact_g3 (2^31-1) 12 7 [10;20;5] [2;2;3] = (Ok, [2;2;3], [1;1;1]) /\
  partition exact_g2 exact_g3 (2^31-1) 12 7 [10;20;5] [2;-1;3] = (Ok, [2;2;3], [1;1;1]).
Proof. vm_compute. split; reflexivity. Qed.

(** * C09 *)
Theorem C09_rank_coordinates_bijection :
  forall (g2 : Z -> Z -> Z -> Z) (g3 : Z -> Z -> Z -> Z -> Z) (maxint size rank : Z) (N user n c : list Z),
  (forall a b c, 0 <= g2 a b c) -> (forall a b c d, 0 <= g3 a b c d) ->
  partition g2 g3 maxint size rank N user = (Ok, n, c) ->
  (* all ranks agree on the grid and get coordinates inside it *)
  (forall r, 0 <= r < size -> exists cr,
     partition g2 g3 maxint size r N user = (Ok, n, cr) /\ in_grid n cr) /\
  (* every grid position belongs to exactly one rank *)
  (forall x, in_grid n x -> exists! r, 0 <= r < size /\
     partition g2 g3 maxint size r N user = (Ok, n, x)).
Proof.
  intros g2 g3 maxint size rank N user n c H2 H3 H.
  destruct (partition_spec g2 H2 g3 H3 _ _ _ _ _ _ _ H) as (A & B & C & D & E & F & G & I & J).
  split.
  - intros r Hr. exists (rank_coords n r). split.
    + eapply partition_rank_indep; eauto.
    + apply rank_coords_in_grid; auto; lia.
  - intros x Hx. destruct (rank_coords_grid_index n x F Hx) as [K1 K2]. rewrite E in K2.
    exists (grid_index n x). split.
    + split; auto. rewrite <- K1 at 2. eapply partition_rank_indep; eauto.
    + intros r [Hr Hp]. pose proof (partition_spec g2 H2 g3 H3 _ _ _ _ _ _ _ Hp) as (_ & _ & _ & _ & _ & _ & _ & _ & Hx').
      rewrite Hx'. apply grid_index_rank_coords; auto. lia.
Qed.
Print Assumptions C09_rank_coordinates_bijection.

Example C09_example : in_grid [2;6;1] [1;3;0].
Proof. split; [reflexivity|]. repeat constructor; lia. Qed.

(** * C10 *)
Theorem C10_distribute_tiles_and_balances :
  forall P N, 1 <= P -> 0 <= N ->
  let start := fun r => snd (dist1d P r N) in
  let width := fun r => fst (dist1d P r N) in
  tiles P N start width /\
  (forall i, 0 <= i < N -> exists! r, 0 <= r < P /\ start r <= i < start r + width r) /\
  (forall r r', Z.abs (width r - width r') <= 1) /\
  (P <= N -> forall r, 1 <= width r).
Proof.
  intros P N HP HN start width.
  pose proof (dist_tiles P N HP HN) as HT. change (dist_s P N) with start in HT. change (dist_n P N) with width in HT.
  split; [exact HT|]. split; [exact (tiles_unique _ _ _ _ HT)|]. split.
  - intros r r'. exact (dist_balanced P N r r' HP HN).
  - intros H r. exact (dist_pos P N r HP H).
Qed.
Print Assumptions C10_distribute_tiles_and_balances.

Example C10_example : map (fun r => dist1d 4 r 10) [0;1;2;3] = [(3,0);(3,3);(2,6);(2,8)].
Proof. reflexivity. Qed.

(** * C56: does the automatic process grid exist whenever some grid fits? *)
(** In two dimensions yes: if a*b = size fits the M x N elements, the automatic grid fits too.  The
    guesses only have to be at least the integer part of the root and at most the direction's element
    count; correct rounding to nearest ensures that ([C56_rounding_is_enough]). *)
Theorem C56_auto_grid_2d_complete :
  forall (g2 : Z -> Z -> Z -> Z) (g3 : Z -> Z -> Z -> Z -> Z) (maxint size rank M N u v : Z),
  (forall a b c, 0 <= g2 a b c) -> (forall a b c d, 0 <= g3 a b c d) ->
  1 <= M -> 1 <= N -> 0 <= rank < size -> u < 1 -> v < 1 ->
  M * size < N * ((g2 size M N + 1) * (g2 size M N + 1)) -> g2 size M N <= M ->
  N * size < M * ((g2 size N M + 1) * (g2 size N M + 1)) -> g2 size N M <= N ->
  (exists a b, 1 <= a <= M /\ 1 <= b <= N /\ a * b = size) ->
  exists n c, partition g2 g3 maxint size rank [M; N] [u; v] = (Ok, n, c).
Proof.
  intros g2 g3 maxint size rank M N u v H2 H3 HM HN Hr Hu Hv A1 A2 B1 B2 Hex.
  pose proof (PART2D_complete g2 H2 size M N ltac:(lia) HM HN A1 A2 B1 B2 Hex) as HP.
  unfold partition. replace (size <? 1) with false by lia.
  replace ((rank <? 0) || (size <=? rank)) with false by lia.
  cbn [part_switch]. unfold Part2D. replace (u <? 1) with true by lia. replace (v <? 1) with true by lia.
  cbn [andb]. destruct (PART2D g2 size M N) as [m n]. destruct HP as (P1 & P2 & P3).
  cbn [zprod fold_right combine existsb fst snd].
  replace (m * (n * 1)) with size by lia. rewrite Z.eqb_refl. cbn [negb].
  replace (M <? m) with false by lia. replace (N <? n) with false by lia. cbn [orb].
  eexists _, _. reflexivity.
Qed.
Print Assumptions C56_auto_grid_2d_complete.

Theorem C56_rounding_is_enough : forall size M N g,
  1 <= size -> 1 <= M -> 1 <= N -> size <= M * N -> 0 <= g ->
  4 * (M * size) < N * ((2*g+1) * (2*g+1)) ->
  (g = 0 \/ N * ((2*g-1) * (2*g-1)) <= 4 * (M * size)) ->
  M * size < N * ((g + 1) * (g + 1)) /\ g <= M.
Proof. exact rounded_root_ok. Qed.

(** Three directions with one count fixed: complete as well (the other two are a two-dimensional search). *)
Definition good_guess (g2 : Z -> Z -> Z -> Z) (size M N : Z) : Prop :=
  M * size < N * ((g2 size M N + 1) * (g2 size M N + 1)) /\ g2 size M N <= M /\
  N * size < M * ((g2 size N M + 1) * (g2 size N M + 1)) /\ g2 size N M <= N.

Theorem C56_one_fixed_3d_complete :
  forall (g2 : Z -> Z -> Z -> Z) (g3 : Z -> Z -> Z -> Z -> Z) (maxint size rank M N P u v a b c : Z),
  (forall a b c, 0 <= g2 a b c) -> 0 <= rank < size -> u < 1 -> v < 1 ->
  1 <= a <= M -> 1 <= b <= N -> 1 <= c <= P -> a * b * c = size ->
  (good_guess g2 (a*b) M N -> exists m n x, partition g2 g3 maxint size rank [M; N; P] [u; v; c] = (Ok, [m; n; c], x)) /\
  (good_guess g2 (a*c) M P -> exists m p x, partition g2 g3 maxint size rank [M; N; P] [u; b; v] = (Ok, [m; b; p], x)) /\
  (good_guess g2 (b*c) N P -> exists n p x, partition g2 g3 maxint size rank [M; N; P] [a; u; v] = (Ok, [a; n; p], x)).
Proof.
  intros g2 g3 maxint size rank M N P u v a b c H2 Hr Hu Hv Ha Hb Hc E.
  unfold partition. replace (size <? 1) with false by lia. replace ((rank <? 0) || (size <=? rank)) with false by lia.
  cbn [part_switch]. unfold Part3D.
  replace (u <? 1) with true by lia. replace (v <? 1) with true by lia.
  replace (a <? 1) with false by lia. replace (b <? 1) with false by lia. replace (c <? 1) with false by lia. cbn [andb].
  split; [|split]; intros (A1 & A2 & A3 & A4).
  - replace (size / c) with (a*b) by (rewrite <- E; symmetry; apply Z.div_mul; lia).
    pose proof (PART2D_complete g2 H2 (a*b) M N ltac:(nia) ltac:(lia) ltac:(lia) A1 A2 A3 A4
                  (ex_intro _ a (ex_intro _ b (conj Ha (conj Hb eq_refl))))) as HP.
    destruct (PART2D g2 (a*b) M N) as [m n]. destruct HP as (P1 & P2 & P3).
    cbn [zprod fold_right combine existsb fst snd]. replace (m * (n * (c * 1))) with size by (rewrite <- E, <- P3; ring).
    rewrite Z.eqb_refl. cbn [negb]. replace (M <? m) with false by lia. replace (N <? n) with false by lia. replace (P <? c) with false by lia.
    cbn [orb]. eexists _, _, _. reflexivity.
  - replace (size / b) with (a*c) by (rewrite <- E; symmetry; replace (a*b*c) with (a*c*b) by ring; apply Z.div_mul; lia).
    pose proof (PART2D_complete g2 H2 (a*c) M P ltac:(nia) ltac:(lia) ltac:(lia) A1 A2 A3 A4
                  (ex_intro _ a (ex_intro _ c (conj Ha (conj Hc eq_refl))))) as HP.
    destruct (PART2D g2 (a*c) M P) as [m n]. destruct HP as (P1 & P2 & P3).
    cbn [zprod fold_right combine existsb fst snd]. replace (m * (b * (n * 1))) with size by (rewrite <- E; replace (a*b*c) with ((a*c)*b) by ring; rewrite <- P3; ring).
    rewrite Z.eqb_refl. cbn [negb]. replace (M <? m) with false by lia. replace (N <? b) with false by lia. replace (P <? n) with false by lia.
    cbn [orb]. eexists _, _, _. reflexivity.
  - replace (size / a) with (b*c) by (rewrite <- E; symmetry; replace (a*b*c) with (b*c*a) by ring; apply Z.div_mul; lia).
    pose proof (PART2D_complete g2 H2 (b*c) N P ltac:(nia) ltac:(lia) ltac:(lia) A1 A2 A3 A4
                  (ex_intro _ b (ex_intro _ c (conj Hb (conj Hc eq_refl))))) as HP.
    destruct (PART2D g2 (b*c) N P) as [m n]. destruct HP as (P1 & P2 & P3).
    cbn [zprod fold_right combine existsb fst snd]. replace (a * (m * (n * 1))) with size by (rewrite <- E; replace (a*b*c) with ((b*c)*a) by ring; rewrite <- P3; ring).
    rewrite Z.eqb_refl. cbn [negb]. replace (M <? a) with false by lia. replace (N <? m) with false by lia. replace (P <? n) with false by lia.
    cbn [orb]. eexists _, _, _. reflexivity.
Qed.
Print Assumptions C56_one_fixed_3d_complete.

Example C56_one_fixed_example :
  good_guess exact_g2 12 3 4 /\
  partition exact_g2 exact_g3 (2^31-1) 60 0 [3; 4; 9] [-1; -1; 5] = (Ok, [3; 4; 5], [0; 0; 0]).
Proof. vm_compute. repeat split; congruence. Qed.

(** In three dimensions no, even with exactly rounded roots: 3 x 4 x 9 elements on 60 processes
    could use 3 x 4 x 5, but the search settles for 2 x 3 x 10 and the call fails. *)
Theorem C56_auto_grid_3d_complete_refuted :
  exists size M N P a b c,
    (1 <= a <= M /\ 1 <= b <= N /\ 1 <= c <= P /\ a * b * c = size) /\
    fst (fst (partition exact_g2 exact_g3 (2^31-1) size 0 [M; N; P] [-1; -1; -1])) = ErrRange.
Proof.
  exists 60, 3, 4, 9, 3, 4, 5. split; [lia|]. vm_compute. reflexivity.
Qed.
Print Assumptions C56_auto_grid_3d_complete_refuted.

(** [exact_g2]/[exact_g3] are the roots correctly rounded to the nearest integer. *)
Theorem C56_witness_guesses_are_exact :
  (forall size M N, 1 <= size -> 1 <= M -> 1 <= N ->
    let g := exact_g2 size M N in
    0 <= g /\ 4 * (M * size) < N * ((2*g+1) * (2*g+1)) /\
    (g = 0 \/ N * ((2*g-1) * (2*g-1)) <= 4 * (M * size))) /\
  (forall size M N P, 1 <= size -> 1 <= M -> 1 <= N -> 1 <= P ->
    let g := exact_g3 size M N P in
    0 <= g /\ 8 * (M * M * size) < N * P * ((2*g+1) * (2*g+1) * (2*g+1)) /\
    (g = 0 \/ N * P * ((2*g-1) * (2*g-1) * (2*g-1)) <= 8 * (M * M * size))).
Proof. exact (conj exact_g2_rounds exact_g3_rounds). Qed.

Example C56_example :
  partition exact_g2 exact_g3 (2^31-1) 21 0 [3; 7] [-1; -1] = (Ok, [3;7], [0;0]).
Proof. reflexivity. Qed.
