(** Properties of what IGAView prints: C119, C120. *)
From Coq Require Import ZArith List Bool Lia Sorted Reals.
From Coq Require Import ZifyBool ZifyNat.
From Verif Require Import Prelude AxisModel AxisSpec AxisProofs AxisInitModel PartModel PartSpec PartProofs PartProps SetupModel SetupProofs SetupProps
  Box GridModel GridSpec GridSetup GridProps AsmProofs VwModel VwSpec VwProofs.
Import ListNotations.
Open Scope Z_scope.

(** C119: the text shows the range of the continuity across the knots inside the domain. *)
Theorem C119_interior : forall (O : KnotOrd) (a : axis O),
  axis_ready a -> ax_periodic a = false -> ends_nonempty (ax_p a) (ax_m a) (ax_U a) ->
  exists s, continuity_string a = Some s /\ describes_range (cont_at false (ax_p a) (ax_m a) (ax_U a)) s.
Proof.
  intros O a (l & Hl & (Hp & Hm & Hnd & Hmult) & (HL & HS) & Hnel & _) Hper He. unfold continuity_string. rewrite Hper.
  set (p := ax_p a) in *. set (m := ax_m a) in *. set (U := ax_U a) in *.
  assert (E1 : In p l) by (apply HL; split; [lia|apply He]).
  assert (E2 : In (m - p - 1) l) by (apply HL; split; [lia|]; replace (m - p - 1 + 1) with (m - p) by lia; apply He).
  assert (F1 : first_of U (p + 1)).
  { split; [lia|]. right. replace (p + 1 - 1) with p by lia. apply He. }
  destruct (Z.eqb_spec (ax_nel a) 1) as [E|E].
  - destruct (cont_loop_spec p m U Hp Hm Hnd (m - p) ltac:(lia) (Z.to_nat m) (p + 1) p (-1) F1 ltac:(lia)) as (x & y & EL & _).
    rewrite EL. cbn [andb negb]. exists Star. split; [reflexivity|]. intros c Hc.
    apply (inside p m U Hp Hm Hnd He) in Hc. destruct Hc as (i & Hi & _).
    destruct l as [|k [|k' l']]; [contradiction| |cbn [length] in Hnel; lia].
    destruct E1 as [E1|[]]. destruct E2 as [E2|[]]. lia.
  - assert (Hlt : p + 1 < m - p).
    { destruct (Z.eq_dec p (m - p - 1)) as [Eq|]; [exfalso|lia]. apply E. rewrite Hnel.
      assert (Hall : forall k, In k l -> k = p) by (intros k Hk; apply HL in Hk; destruct Hk; lia).
      destruct l as [|k [|k' l']]; [contradiction|reflexivity|exfalso].
      assert (k < k'). { inversion HS as [|? ? _ HF]; subst. inversion HF; subst; assumption. }
      assert (k = p) by (apply Hall; left; auto). assert (k' = p) by (apply Hall; right; left; auto). lia. }
    destruct (cont_range p m U Hp Hm Hnd Hmult (p + 1) (m - p) F1 Hlt ltac:(lia)) as (x & y & EL & HD).
    rewrite EL. cbn [andb]. exists (if x =? y then One x else Range x y). split; [destruct (x =? y); reflexivity|].
    apply (describes_ext _ _ _ (inside p m U Hp Hm Hnd He)). exact HD.
Qed.

(** On a periodic axis the seam is one of these knots. *)
Theorem C119_periodic : forall (O : KnotOrd) (a : axis O),
  axis_ready a -> ax_periodic a = true -> klt (ax_U a (ax_p a)) (ax_U a (ax_m a - ax_p a)) -> seam (ax_p a) (ax_m a) (ax_U a) ->
  exists s, continuity_string a = Some s /\ describes_range (cont_at true (ax_p a) (ax_m a) (ax_U a)) s.
Proof.
  intros O a (l & Hl & (Hp & Hm & Hnd & Hmult) & _) Hper HU Hs. unfold continuity_string. rewrite Hper.
  destruct (around _ _ _ Hp Hm Hnd HU Hs) as (F & L & K & HE).
  destruct (cont_range _ _ _ Hp Hm Hnd Hmult _ _ F L K) as (x & y & EL & HD). rewrite EL. rewrite andb_false_r.
  exists (if x =? y then One x else Range x y). split; [destruct (x =? y); reflexivity|].
  exact (describes_ext _ _ _ HE HD).
Qed.

(** When the domain begins inside a repeated knot, the rest of it is taken for a knot inside the domain. *)
Theorem C119_ends_refuted : exists (a a' : axis Zord) m U,
  axis_set_knots m U a = (Ok, a') /\ ax_periodic a' = false /\ 1 < ax_nel a' /\
  exists s, continuity_string a' = Some s /\ ~ describes_range (cont_at false (ax_p a') (ax_m a') (ax_U a')) s.
Proof.
  exists (@mk_axis Zord false 3 1 (fun _ => 0) 1 1 (Some [0])).
  set (U := arr 0 [0; 1; 2; 2; 2; 3; 3; 4; 5; 6; 7] : Z -> Zord).
  destruct (axis_set_knots 10 U (@mk_axis Zord false 3 1 (fun _ => 0) 1 1 (Some [0]))) as [s a'] eqn:E.
  vm_compute in E. injection E as <- <-.
  eexists _, 10, U. split; [reflexivity|]. split; [reflexivity|]. split; [reflexivity|].
  exists (Range 1 2). split; [reflexivity|]. cbn [describes_range]. intros (_ & _ & H & _).
  destruct H as (i & Hi & L & G & Ec).
  assert (Hi' : i = 1 \/ i = 2 \/ i = 3 \/ i = 4 \/ i = 5 \/ i = 6 \/ i = 7 \/ i = 8 \/ i = 9) by (cbn in Hi; lia).
  destruct Hi' as [-> | [-> | [-> | [-> | [-> | [-> | [-> | [-> | ->]]]]]]]]; vm_compute in L, G, Ec; discriminate.
Qed.

(** A quadratic axis with a single and a double knot shows "0:1"; a periodic one "1". *)
Example C119_example :
  continuity_string (snd (axis_set_knots 8 (arr 0 [0;0;0;1;1;2;3;3;3] : Z -> Zord) (@mk_axis Zord false 2 1 (fun _ => 0) 1 1 (Some [0])))) = Some (Range 0 1) /\
  continuity_string (snd (axis_set_knots 8 (arr 0 [0;1;2;3;4;5;6;7;8] : Z -> Zord) (@mk_axis Zord true 2 1 (fun _ => 0) 1 1 (Some [0])))) = Some (One 1) /\
  continuity_string (snd (axis_set_knots 5 (arr 0 [0;0;0;1;1;1] : Z -> Zord) (@mk_axis Zord false 2 1 (fun _ => 0) 1 1 (Some [0])))) = Some Star.
Proof. repeat split; reflexivity. Qed.

(** * C120: the numbers of nodes and elements *)
Lemma all_sum_zsum : forall size v, 1 <= size -> all_sum size v = zsum v 0 size.
Proof.
  intros size v H. unfold all_sum, zsum. rewrite (zseq_cons 0 size) by lia. cbn [map fold_right].
  assert (G : forall l s, fold_left (fun s r => s + v r) l s = s + fold_right Z.add 0 (map v l)).
  { induction l as [|r l IH]; intros s; cbn [fold_left map fold_right]; [lia|]. rewrite IH. lia. }
  rewrite G. reflexivity.
Qed.

Lemma all_min_spec : forall size v, 1 <= size ->
  (forall r, 0 <= r < size -> all_min size v <= v r) /\ exists r, 0 <= r < size /\ all_min size v = v r.
Proof.
  intros size v H. unfold all_min.
  assert (G : forall l s, fold_left (fun s r => Z.min s (v r)) l s <= s /\ (forall r, In r l -> fold_left (fun s r => Z.min s (v r)) l s <= v r) /\
    (fold_left (fun s r => Z.min s (v r)) l s = s \/ exists r, In r l /\ fold_left (fun s r => Z.min s (v r)) l s = v r)).
  { induction l as [|r l IH]; intros s; cbn [fold_left].
    - split; [lia|]. split; [intros r []|left; reflexivity].
    - destruct (IH (Z.min s (v r))) as (A & B & C). split; [lia|]. split.
      + intros q [<-|Hq]; [lia|auto].
      + destruct C as [C|(q & Hq & C)]; [|right; exists q; split; [right; exact Hq|exact C]].
        destruct (Z.min_spec s (v r)) as [[_ M]|[_ M]]; rewrite M in *; [left; exact C|right; exists r; split; [left; reflexivity|exact C]]. }
  destruct (G (zseq 1 (size - 1)) (v 0)) as (A & B & C). split.
  - intros r Hr. destruct (Z.eq_dec r 0) as [->|]; [exact A|]. apply B, in_zseq. lia.
  - destruct C as [C|(r & Hr & C)]; [exists 0; split; [lia|exact C]|]. apply in_zseq in Hr. exists r. split; [lia|exact C].
Qed.

Lemma all_max_spec : forall size v, 1 <= size ->
  (forall r, 0 <= r < size -> v r <= all_max size v) /\ exists r, 0 <= r < size /\ all_max size v = v r.
Proof.
  intros size v H. unfold all_max.
  assert (G : forall l s, s <= fold_left (fun s r => Z.max s (v r)) l s /\ (forall r, In r l -> v r <= fold_left (fun s r => Z.max s (v r)) l s) /\
    (fold_left (fun s r => Z.max s (v r)) l s = s \/ exists r, In r l /\ fold_left (fun s r => Z.max s (v r)) l s = v r)).
  { induction l as [|r l IH]; intros s; cbn [fold_left].
    - split; [lia|]. split; [intros r []|left; reflexivity].
    - destruct (IH (Z.max s (v r))) as (A & B & C). split; [lia|]. split.
      + intros q [<-|Hq]; [lia|auto].
      + destruct C as [C|(q & Hq & C)]; [|right; exists q; split; [right; exact Hq|exact C]].
        destruct (Z.max_spec s (v r)) as [[_ M]|[_ M]]; rewrite M in *; [right; exists r; split; [left; reflexivity|exact C]|left; exact C]. }
  destruct (G (zseq 1 (size - 1)) (v 0)) as (A & B & C). split.
  - intros r Hr. destruct (Z.eq_dec r 0) as [->|]; [exact A|]. apply B, in_zseq. lia.
  - destruct C as [C|(r & Hr & C)]; [exists 0; split; [lia|exact C]|]. apply in_zseq in Hr. exists r. split; [lia|exact C].
Qed.

Lemma ival_vol : forall dim w, 1 <= dim <= 3 -> (forall i, dim <= i < 3 -> w i = 1) -> ival dim w = vol w.
Proof.
  intros dim w H Hw. unfold ival, vol. assert (E : dim = 1 \/ dim = 2 \/ dim = 3) by lia.
  destruct E as [-> | [-> | ->]]; cbn [zseq Z.to_nat Pos.to_nat]; unfold zseq; cbn [Z.to_nat Pos.to_nat Pos.iter_op Nat.add seq map fold_left Z.of_nat Z.add].
  - rewrite (Hw 1), (Hw 2) by lia. change (1 * w 0 = w 0 * 1 * 1). ring.
  - rewrite (Hw 2) by lia. change (1 * w 0 * w 1 = w 0 * w 1 * 1). ring.
  - change (1 * w 0 * w 1 * w 2 = w 0 * w 1 * w 2). ring.
Qed.

Definition w3 (w : Z -> Z) : Z -> Z := fun d => if d =? 0 then w 0 else if d =? 1 then w 1 else w 2.
Lemma length_box_w : forall s w, (forall d, 0 <= d < 3 -> 0 <= w d) -> Z.of_nat (length (box s w)) = vol w.
Proof.
  intros s w H. change (box s w) with (box s (w3 w)). change (vol w) with (vol (w3 w)).
  assert (W : forall d, 0 <= w3 w d).
  { intros d. unfold w3. destruct (d =? 0); [apply H; lia|]. destruct (d =? 1); apply H; lia. }
  rewrite length_box by exact W. apply Z2Nat.id. unfold vol. apply Z.mul_nonneg_nonneg; [apply Z.mul_nonneg_nonneg|]; apply W.
Qed.

Lemma length_flat : forall (f : Z -> list triple) (v : Z -> Z) l, (forall r, In r l -> Z.of_nat (length (f r)) = v r) ->
  Z.of_nat (length (flat_map f l)) = fold_right Z.add 0 (map v l).
Proof.
  intros f v l. induction l as [|r l IH]; intros H; [reflexivity|]. cbn [flat_map map fold_right].
  rewrite app_length, Nat2Z.inj_add, H by (left; reflexivity). rewrite IH; [reflexivity|]. intros q Hq. apply H. right. exact Hq.
Qed.

Lemma vol_tiles : forall size N st wd, boxes_tile size N st wd -> (forall d, 0 <= d < 3 -> 0 <= N d) ->
  (forall r d, 0 <= r < size -> 0 <= d < 3 -> 0 <= wd r d) ->
  zsum (fun r => vol (wd r)) 0 size = vol N.
Proof.
  intros size N st wd HT HN Hw.
  assert (P := Permutation.Permutation_length (tiles_perm _ _ _ _ HT)). apply (f_equal Z.of_nat) in P.
  rewrite length_box_w in P by exact HN.
  rewrite (length_flat _ (fun r => vol (wd r))) in P; [exact P|].
  intros r Hr. apply in_zseq in Hr. apply length_box_w. intros d Hd. apply Hw; [lia|exact Hd].
Qed.

Section Numbers.
  Context {O : KnotOrd}.
  Variables (g2 : Z -> Z -> Z -> Z) (g3 : Z -> Z -> Z -> Z -> Z) (maxint size dim : Z) (axes : Z -> axis O) (user : list Z)
            (LY : Z -> layout).
  Hypothesis HS : setup_ok g2 g3 maxint size dim axes user LY.

  Lemma set_up_widths : 1 <= size /\ 1 <= dim <= 3 /\
    (forall r d, 0 <= r < size -> 0 <= d < 3 -> 1 <= r_lwidth (ly_node (LY r) d) /\ 1 <= ly_elem_width (LY r) d) /\
    (forall r d, 0 <= r < size -> dim <= d < 3 -> r_lwidth (ly_node (LY r) d) = 1 /\ ly_elem_width (LY r) d = 1) /\
    (forall d, 0 <= d < 3 -> 0 <= node_size dim axes d /\ 0 <= elem_size dim axes d).
  Proof using All.
    pose proof HS as (_ & _ & Hs & Hax & _).
    destruct (setup_form _ _ _ _ _ _ _ _ HS) as (n & Hn & HL & Hdim & Hz & HP & HLY).
    split; [exact Hs|]. split; [exact Hdim|]. split; [|split].
    - intros r d Hr Hd. rewrite (HLY r Hr). unfold layout_of. cbn [ly_node ly_elem_width].
      destruct (Z.ltb_spec d dim) as [Hlt|Hge]; [|cbn; lia].
      destruct (setup_wf _ _ _ _ _ _ _ _ HS d ltac:(lia)) as (l & L & He).
      pose proof (pad_coords n r d Hn ltac:(lia) ltac:(lia)) as Hc.
      pose proof (HP d ltac:(lia)) as HPd.
      destruct (node_tiles (axes d) l (pad 1 n d) L He HPd) as (_ & Wd & _). split; [apply Wd; exact Hc|].
      apply dist_pos; lia.
    - intros r d Hr Hd. rewrite (HLY r Hr). unfold layout_of. cbn [ly_node ly_elem_width].
      replace (d <? dim) with false by lia. split; reflexivity.
    - intros d Hd. unfold node_size, elem_size. destruct (Z.ltb_spec d dim) as [Hlt|Hge]; [|lia].
      destruct (setup_wf _ _ _ _ _ _ _ _ HS d ltac:(lia)) as (l & L & He). destruct (wf_ends (axes d) l L He) as (Hnel & _).
      destruct (wf_nnp (axes d) l L) as (s & Hs' & E). destruct L as (_ & (Hp & Hm & _) & _). clear - Hnel Hs' E Hp Hm. destruct (ax_periodic (axes d)); lia.
  Qed.

  Lemma counted : forall (v w : Z -> Z -> Z) (N : Z -> Z) st,
    boxes_tile size N st w -> (forall d, 0 <= d < 3 -> 0 <= N d) -> 1 <= size -> 1 <= dim <= 3 ->
    (forall r d, 0 <= r < size -> 0 <= d < 3 -> 1 <= w r d) -> (forall r d, 0 <= r < size -> dim <= d < 3 -> w r d = 1) ->
    (forall d, dim <= d < 3 -> N d = 1) ->
    all_sum size (fun r => ival dim (w r)) = ival dim N /\ (forall r, 0 <= r < size -> 1 <= ival dim (w r)).
  Proof using.
    intros _ w N st HT HN Hs Hdim Hw H1 HN1. split.
    - rewrite all_sum_zsum by exact Hs. rewrite (ival_vol dim N Hdim HN1).
      rewrite <- (vol_tiles _ _ _ _ HT HN) by (intros r d Hr Hd; specialize (Hw r d Hr Hd); lia).
      unfold zsum. f_equal. apply map_ext_in. intros r Hr. apply in_zseq in Hr. apply ival_vol; [exact Hdim|].
      intros i Hi. apply H1; lia.
    - intros r Hr. rewrite (ival_vol dim _ Hdim) by (intros i Hi; apply H1; auto). unfold vol.
      assert (A := Hw r 0 Hr ltac:(lia)). assert (B := Hw r 1 Hr ltac:(lia)). assert (C := Hw r 2 Hr ltac:(lia)).
      generalize dependent (w r 0). generalize dependent (w r 1). generalize dependent (w r 2). clear. intros x Hx y Hy z Hz.
      assert (1 <= z * y) by nia. nia.
  Qed.
End Numbers.

(** The sums are the numbers of nodes and elements of the whole mesh, the minima and maxima are those of some
    ranks and bound all, and the minima are positive, so the ratios printed exist. *)
Theorem C120_counts : forall (O : KnotOrd) g2 g3 maxint size dim (axes : Z -> axis O) user LY,
  setup_ok g2 g3 maxint size dim axes user LY ->
  let '(ns, nmin, nmax) := shown_nodes size dim LY in
  let '(es, emin, emax) := shown_elems size dim LY in
  ns = ival dim (fun i => ax_nnp (axes i)) /\ es = ival dim (fun i => ax_nel (axes i)) /\
  1 <= nmin <= nmax /\ 1 <= emin <= emax /\ nmin * size <= ns <= nmax * size /\ emin * size <= es <= emax * size /\
  (forall r, 0 <= r < size -> nmin <= ival dim (fun i => r_lwidth (ly_node (LY r) i)) <= nmax /\
                              emin <= ival dim (ly_elem_width (LY r)) <= emax) /\
  exists r1 r2 r3 r4, 0 <= r1 < size /\ 0 <= r2 < size /\ 0 <= r3 < size /\ 0 <= r4 < size /\
    nmin = ival dim (fun i => r_lwidth (ly_node (LY r1) i)) /\ nmax = ival dim (fun i => r_lwidth (ly_node (LY r2) i)) /\
    emin = ival dim (ly_elem_width (LY r3)) /\ emax = ival dim (ly_elem_width (LY r4)).
Proof.
  intros O g2 g3 maxint size dim axes user LY HS. unfold shown_nodes, shown_elems.
  destruct (set_up_widths _ _ _ _ _ _ _ _ HS) as (Hs & Hdim & W & W1 & HN).
  destruct (counted size dim (fun _ _ => 0) (fun r d => r_lwidth (ly_node (LY r) d)) (node_size dim axes) _
    (setup_node_tile _ _ _ _ _ _ _ _ HS) ltac:(intros d Hd; apply HN; exact Hd) Hs Hdim
    ltac:(intros r d Hr Hd; apply W; auto) ltac:(intros r d Hr Hd; apply W1; auto)
    ltac:(intros d Hd; unfold node_size; replace (d <? dim) with false by lia; reflexivity)) as (S1 & P1).
  destruct (counted size dim (fun _ _ => 0) (fun r => ly_elem_width (LY r)) (elem_size dim axes) _
    (setup_elem_tile _ _ _ _ _ _ _ _ HS) ltac:(intros d Hd; apply HN; exact Hd) Hs Hdim
    ltac:(intros r d Hr Hd; apply W; auto) ltac:(intros r d Hr Hd; apply W1; auto)
    ltac:(intros d Hd; unfold elem_size; replace (d <? dim) with false by lia; reflexivity)) as (S2 & P2).
  assert (IE : forall v w, (forall i, 0 <= i < dim -> v i = w i) -> ival dim v = ival dim w).
  { intros v w E. unfold ival. assert (G : forall l s, (forall i, In i l -> v i = w i) -> fold_left (fun x i => x * v i) l s = fold_left (fun x i => x * w i) l s).
    { induction l as [|i l IH]; intros s Hi; [reflexivity|]. cbn [fold_left]. rewrite (Hi i) by (left; reflexivity). apply IH. intros; apply Hi; right; auto. }
    apply G. intros i Hi. apply in_zseq in Hi. apply E. lia. }
  set (v := fun r => ival dim (fun i => r_lwidth (ly_node (LY r) i))) in *.
  set (e := fun r => ival dim (ly_elem_width (LY r))) in *.
  destruct (all_min_spec size v Hs) as (Mn & r1 & R1 & E1). destruct (all_max_spec size v Hs) as (Mx & r2 & R2 & E2).
  destruct (all_min_spec size e Hs) as (Men & r3 & R3 & E3). destruct (all_max_spec size e Hs) as (Mex & r4 & R4 & E4).
  assert (BND : forall (u : Z -> Z) a b, (forall r, 0 <= r < size -> a <= u r <= b) -> a * size <= all_sum size u <= b * size).
  { intros u a b Hu. rewrite all_sum_zsum by exact Hs. unfold zsum.
    assert (G : forall l, (forall r, In r l -> 0 <= r < size) -> a * Z.of_nat (length l) <= fold_right Z.add 0 (map u l) <= b * Z.of_nat (length l)).
    { induction l as [|r l IH]; intros Hl; [cbn; lia|]. cbn [map fold_right length]. rewrite Nat2Z.inj_succ.
      specialize (Hu r (Hl r (or_introl eq_refl))). specialize (IH (fun q Hq => Hl q (or_intror Hq))). nia. }
    specialize (G (zseq 0 size) (fun r Hr => proj1 (in_zseq 0 size r) Hr)). rewrite length_zseq, Z2Nat.id in G by lia. exact G. }
  split. { etransitivity; [exact S1|]. apply IE. intros i Hi. unfold node_size. replace (i <? dim) with true by lia. reflexivity. }
  split. { etransitivity; [exact S2|]. apply IE. intros i Hi. unfold elem_size. replace (i <? dim) with true by lia. reflexivity. }
  split. { rewrite E1 at 1. split; [apply P1; exact R1|]. specialize (Mn 0 ltac:(lia)). specialize (Mx 0 ltac:(lia)). lia. }
  split. { rewrite E3 at 1. split; [apply P2; exact R3|]. specialize (Men 0 ltac:(lia)). specialize (Mex 0 ltac:(lia)). lia. }
  split. { apply BND. intros r Hr. split; [apply Mn|apply Mx]; exact Hr. }
  split. { apply BND. intros r Hr. split; [apply Men|apply Mex]; exact Hr. }
  split. { intros r Hr. split; split; [apply Mn|apply Mx|apply Men|apply Mex]; exact Hr. }
  exists r1, r2, r3, r4. repeat (split; [assumption|]). exact E4.
Qed.

Example C120_example : setup_ok exact_g2 exact_g3 (2^31-1) 6 2 ex_axes [-1;-1] ex_LY /\
  (shown_nodes 6 2 ex_LY, shown_elems 6 2 ex_LY) = (56, 6, 12, (32, 4, 6)).
Proof. split; [exact ex_setup_ok|]. vm_compute. reflexivity. Qed.

Print Assumptions C119_interior.
Print Assumptions C119_periodic.
Print Assumptions C119_ends_refuted.
Print Assumptions C120_counts.
