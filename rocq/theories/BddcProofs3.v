(** Lemmas about the primal vertices handed to BDDC. *)
From Coq Require Import ZArith List Bool Lia.
From Coq Require Import ZifyBool ZifyNat.
From Verif Require Import Prelude RealOrd AxisModel AxisSpec AxisInitModel PartModel PartSpec PartProofs SetupModel SetupProofs SetupProps GridModel GridSpec GridProofs GridSetup ElemSpec PcProofs2 BddcModel BddcSpec BddcProofs BddcProofs2 Box.
Import ListNotations.
Open Scope Z_scope.

(** The position of the upper corner of a process, from the ends of its owned and ghosted ranges. *)
Definition upper (gend lend : Z) : Z := gend - 1 - (gend - lend) / 2.

Section Axis.
  Context {O : KnotOrd}.
  Variable a : axis O.
  Variable l : list Z.
  Hypothesis L : wf a l.
  Hypothesis He : ends_nonempty (ax_p a) (ax_m a) (ax_U a).
  Variable P : Z.
  Hypothesis HP : 1 <= P <= ax_nel a.

  Definition up (c : Z) : Z :=
    let n := nrange P a c in upper (r_gstart n + r_gwidth n) (r_lstart n + r_lwidth n).

  Lemma es_mono c c' : 0 <= c -> c < c' -> c' < P -> es P a c + ew P a c <= es P a c'.
  Proof.
    intros H0 Hc Hc'. replace c' with (c + 1 + Z.of_nat (Z.to_nat (c' - c - 1))) in * by lia.
    induction (Z.to_nat (c' - c - 1)) as [|k IH].
    - replace (c + 1 + Z.of_nat 0) with (c + 1) by lia. destruct (elem_block P a c HP ltac:(lia)) as (_ & _ & _ & E & _). rewrite E by lia. lia.
    - specialize (IH ltac:(lia) ltac:(lia)). destruct (elem_block P a (c + 1 + Z.of_nat k) HP ltac:(lia)) as (B & _ & _ & E & _).
      replace (c + 1 + Z.of_nat (Datatypes.S k)) with (c + 1 + Z.of_nat k + 1) by lia. rewrite E by lia. lia.
  Qed.

  (** Below the last process: e is the first element of the next one. *)
  Lemma up_inner c : 0 <= c < P - 1 -> let e := es P a c + ew P a c in
    1 <= e < ax_nel a /\ 1 <= span_at a e - span_at a (e-1) <= ax_p a /\
    up c = span_at a (e-1) - (ax_p a + 1 - (span_at a e - span_at a (e-1))) / 2.
  Proof.
    intros Hc e. destruct (elem_block P a c HP ltac:(lia)) as (B1 & B2 & B3 & _ & _ & _ & B7). specialize (B7 ltac:(lia)). fold e in B3, B7.
    assert (He1 : 1 <= e) by (unfold e; lia). split; [lia|].
    pose proof (span_at_gap a l L (e-1) e ltac:(lia) ltac:(lia) ltac:(lia)) as G1.
    pose proof (span_at_step a l L (e-1) ltac:(lia) ltac:(lia)) as G2. replace (e - 1 + 1) with e in G2 by lia. split; [lia|].
    unfold up, nrange, node_range, geom_range. cbn [r_lstart r_lwidth r_gstart r_gwidth]. unfold upper.
    replace (c =? P - 1) with false by lia. fold e.
    replace (e - 1 <? ax_nel a - 1) with true by lia. replace (e - 1 + 1) with e by lia.
    replace (span_at a (es P a c) - ax_p a + (span_at a (e - 1) + 1 - (span_at a (es P a c) - ax_p a))) with (span_at a (e - 1) + 1) by lia.
    replace (span_at a (es P a c) - ax_p a + (span_at a e - ax_p a - (span_at a (es P a c) - ax_p a))) with (span_at a e - ax_p a) by lia.
    replace (span_at a (e - 1) + 1 - (span_at a e - ax_p a)) with (ax_p a + 1 - (span_at a e - span_at a (e-1))) by lia. lia.
  Qed.
  Lemma up_last : let rep := ax_m a - ax_p a - ax_nnp a in
    0 <= rep <= ax_p a /\ up (P-1) = ax_m a - ax_p a - 1 - rep / 2 /\ (ax_periodic a = false -> rep = 0).
  Proof.
    intros rep. destruct (wf_nnp a l L) as (s & Hs & En). split; [unfold rep; destruct (ax_periodic a); lia|].
    destruct (elem_block P a (P-1) HP ltac:(lia)) as (B1 & B2 & B3 & _ & B5 & _ & _). specialize (B5 ltac:(lia)).
    destruct (wf_ends a l L He) as (W1 & W2 & W3). split; [|intros E; unfold rep; rewrite E in En; lia].
    unfold up, nrange, node_range, geom_range. cbn [r_lstart r_lwidth r_gstart r_gwidth]. unfold upper. rewrite Z.eqb_refl, B5, W3.
    replace (span_at a (es P a (P - 1)) - ax_p a + (ax_m a - ax_p a - 1 + 1 - (span_at a (es P a (P - 1)) - ax_p a))) with (ax_m a - ax_p a) by lia.
    replace (ax_m a - ax_p a - (span_at a (es P a (P - 1)) - ax_p a + (ax_nnp a - (span_at a (es P a (P - 1)) - ax_p a)))) with rep by (unfold rep; lia). lia.
  Qed.

  Lemma half_step q x d : 1 <= d -> x - d - (q + 1 - d) / 2 <= x - q / 2 - 1.
  Proof.
    intros Hd. assert (H : q / 2 + 1 <= d + (q + 1 - d) / 2); [|lia].
    assert (E : d + (q + 1 - d) / 2 = (q + 1 + d) / 2) by (replace (q + 1 + d) with (q + 1 - d + d * 2) by lia; rewrite Z.div_add by lia; lia).
    rewrite E. assert (E2 : q / 2 + 1 = (q + 2) / 2) by (replace (q + 2) with (q + 1 * 2) by lia; rewrite Z.div_add by lia; lia).
    rewrite E2. apply Z.div_le_mono; lia.
  Qed.
  Lemma half_le x y : x <= y -> x / 2 <= y / 2.
  Proof. intros. apply Z.div_le_mono; lia. Qed.

  Lemma up_lt c c' : 0 <= c -> c < c' -> c' < P -> up c < up c'.
  Proof.
    intros H0 Hc Hc'. destruct (up_inner c ltac:(lia)) as (E1 & D1 & U1). pose proof (es_mono c c' H0 Hc Hc') as M.
    set (e := es P a c + ew P a c) in *.
    pose proof (half_step (ax_p a) (span_at a e) (span_at a e - span_at a (e-1)) ltac:(lia)) as HS.
    assert (Hu : up c <= span_at a e - ax_p a / 2 - 1) by (rewrite U1; lia).
    destruct (Z.eq_dec c' (P-1)) as [-> | Hl].
    - destruct up_last as (R & U & _). destruct (wf_ends a l L He) as (W1 & W2 & W3).
      pose proof (span_at_gap a l L e (ax_nel a - 1) ltac:(lia) ltac:(lia) ltac:(lia)) as G. rewrite W3 in G.
      pose proof (half_le (ax_m a - ax_p a - ax_nnp a) (ax_p a) ltac:(lia)). rewrite U. lia.
    - destruct (up_inner c' ltac:(lia)) as (E2 & D2 & U2). set (e' := es P a c' + ew P a c') in *.
      destruct (elem_block P a c' HP ltac:(lia)) as (B1 & _).
      pose proof (span_at_gap a l L e (e'-1) ltac:(lia) ltac:(unfold e'; lia) ltac:(lia)) as G.
      pose proof (half_le (ax_p a + 1 - (span_at a e' - span_at a (e'-1))) (ax_p a) ltac:(lia)). rewrite U2. unfold e' in *. lia.
  Qed.

  Lemma up_spread : 2 <= P -> up (P-1) < up 0 + ax_nnp a.
  Proof.
    intros HP2. destruct (up_inner 0 ltac:(lia)) as (E1 & D1 & U1). destruct up_last as (R & U & _). destruct (wf_ends a l L He) as (W1 & W2 & W3).
    set (e := es P a 0 + ew P a 0) in *. set (rep := ax_m a - ax_p a - ax_nnp a) in *.
    pose proof (span_at_gap a l L 0 (e-1) ltac:(lia) ltac:(lia) ltac:(lia)) as G. rewrite W2 in G.
    pose proof (span_at_gap a l L (e-1) e ltac:(lia) ltac:(lia) ltac:(lia)) as G'.
    assert (E2 : ax_nnp a = ax_m a - ax_p a - rep) by (unfold rep; lia). rewrite U, E2, U1.
    set (x := span_at a (e-1)) in *. set (y := span_at a e) in *. set (p := ax_p a) in *. clearbody x y p rep. clear - R D1 G G' E1.
    (* ceil(rep/2) <= x - (p+1-(y-x))/2 *)
    assert (K : rep - rep / 2 <= x - (p + 1 - (y - x)) / 2); [|lia].
    assert (H1 : rep - rep / 2 <= p - p / 2).
    { pose proof (Z.div_mod rep 2 ltac:(lia)). pose proof (Z.mod_pos_bound rep 2 ltac:(lia)).
      pose proof (Z.div_mod p 2 ltac:(lia)). pose proof (Z.mod_pos_bound p 2 ltac:(lia)). lia. }
    assert (H2 : (p + 1 - (y - x)) / 2 <= p / 2) by (apply half_le; lia). lia.
  Qed.

  Lemma up_mod_inj x y : 0 <= x < P -> 0 <= y < P -> up x mod ax_nnp a = up y mod ax_nnp a -> x = y.
  Proof.
    assert (HN : 1 <= ax_nnp a).
    { destruct (wf_nnp a l L) as (s & Hs & En). pose proof L as (_ & (Hp & Hm & _) & _). clear - Hs En Hp Hm. destruct (ax_periodic a); lia. }
    assert (Key1 : forall x y, 0 <= x -> x < y -> y < P -> up x mod ax_nnp a = up y mod ax_nnp a -> False).
    { intros x' y' Hx Hxy Hy X. pose proof (up_lt x' y' Hx Hxy Hy) as U1. assert (HP2 : 2 <= P) by lia. pose proof (up_spread HP2) as U2.
      assert (U3 : up 0 <= up x') by (destruct (Z.eq_dec x' 0) as [-> | Hx0]; [lia|pose proof (up_lt 0 x' ltac:(lia) ltac:(lia) ltac:(lia)); lia]).
      assert (U4 : up y' <= up (P-1)) by (destruct (Z.eq_dec y' (P-1)) as [-> | Hx0]; [lia|pose proof (up_lt y' (P-1) ltac:(lia) ltac:(lia) ltac:(lia)); lia]).
      set (X1 := up x') in *. set (X2 := up y') in *. set (X3 := up 0) in *. set (X4 := up (P-1)) in *. clearbody X1 X2 X3 X4. clear - HN U1 U2 U3 U4 X.
      assert (D : (X2 - X1) mod ax_nnp a = 0) by (rewrite Zminus_mod, X, Z.sub_diag; apply Z.mod_0_l; lia).
      rewrite Z.mod_small in D by lia. lia. }
    intros Hx Hy X. destruct (Z.lt_trichotomy x y) as [H|[H|H]]; auto; exfalso; [apply (Key1 x y)|apply (Key1 y x)]; auto; lia.
  Qed.
  Lemma up_range c : 0 <= c < P -> let n := nrange P a c in 1 <= up c - r_gstart n < r_gwidth n.
  Proof.
    intros Hc n. pose proof L as (_ & (Hp & Hm & _) & _).
    destruct (elem_block P a c HP Hc) as (B1 & B2 & B3 & _ & B5 & _ & _).
    assert (E : r_gstart n = span_at a (es P a c) - ax_p a) by reflexivity.
    assert (E' : r_gwidth n = span_at a (es P a c + ew P a c - 1) + 1 - r_gstart n) by reflexivity.
    assert (Hhalf : ax_p a / 2 <= ax_p a - 1) by (pose proof (Z.div_mod (ax_p a) 2 ltac:(lia)); pose proof (Z.mod_pos_bound (ax_p a) 2 ltac:(lia)); lia).
    destruct (Z.eq_dec c (P-1)) as [Ec | Hl].
    - specialize (B5 Ec). destruct up_last as (R & U & _). destruct (wf_ends a l L He) as (W1 & W2 & W3). rewrite Ec in *. rewrite U.
      pose proof (span_at_gap a l L (es P a (P-1)) (ax_nel a - 1) ltac:(lia) ltac:(lia) ltac:(lia)) as G. rewrite W3 in G.
      pose proof (half_le (ax_m a - ax_p a - ax_nnp a) (ax_p a) ltac:(lia)). rewrite B5, W3 in E'.
      pose proof (half_le 0 (ax_m a - ax_p a - ax_nnp a) ltac:(lia)) as Z0. change (0 / 2) with 0 in Z0. lia.
    - destruct (up_inner c ltac:(lia)) as (E1 & D1 & U1). rewrite U1. set (e := es P a c + ew P a c) in *.
      pose proof (span_at_gap a l L (es P a c) (e-1) ltac:(lia) ltac:(unfold e; lia) ltac:(lia)) as G.
      pose proof (half_le (ax_p a + 1 - (span_at a e - span_at a (e-1))) (ax_p a) ltac:(lia)).
      pose proof (half_le 0 (ax_p a + 1 - (span_at a e - span_at a (e-1))) ltac:(lia)) as Z0. change (0 / 2) with 0 in Z0. lia.
  Qed.
  Lemma lend_gend c : 0 <= c < P -> let n := nrange P a c in r_lstart n + r_lwidth n <= r_gstart n + r_gwidth n.
  Proof.
    intros Hc n. unfold n. pose proof (node_tiles a l P L He HP) as (_ & _ & T3). specialize (T3 c Hc). cbv zeta in *. lia.
  Qed.
End Axis.

(** * The list of primal vertices *)
Section List8.
  Variable dim : Z.
  Variable periodic : Z -> bool.
  Variable ly : layout.

  Definition corner_of (d : Z) : Z := if d <? dim then
    let n := ly_node ly d in
    let lend := r_lstart n + r_lwidth n in let gend := r_gstart n + r_gwidth n in
    r_gwidth n - Z.quot (gend - lend) 2 - 1 else 0.
  Definition pos_of (d b : Z) : Z := if b =? 0 then 0 else corner_of d.
  Definition allowed (d b : Z) : Prop :=
    (b = 0 \/ b = 1) /\ (b = 1 -> d < dim) /\ (b = 0 -> d < dim -> ly_coord ly d = 0 /\ periodic d = false).
  Definition primal_node (i j k : Z) : triple := (pos_of 0 i, pos_of 1 j, pos_of 2 k).
  Definition list8 : list triple := flat_map (fun i => flat_map (fun j => map (fun k => (i, j, k)) (zseq 0 2)) (zseq 0 2)) (zseq 0 2).
  Definition bad (s : triple) : bool := let '(i, j, k) := s in
    (((0 <? ly_coord ly 2) || ((2 <? dim) && periodic 2)) && (k =? 0)) ||
    ((((0 <? ly_coord ly 1) || ((1 <? dim) && periodic 1)) && (j =? 0)) ||
     ((((0 <? ly_coord ly 0) || ((0 <? dim) && periodic 0)) && (i =? 0)) ||
      (((dim <? 2) && (j =? 1) && (k =? 0)) || ((dim <? 3) && (k =? 1))))).
  Definition base (s : triple) : Z := let '(i, j, k) := s in lin (fun d => r_gwidth (ly_node ly d)) (primal_node i j k).

  Lemma if5 (c1 c2 c3 c4 c5 : bool) (v : Z) :
    (if c1 then -1 else if c2 then -1 else if c3 then -1 else if c4 then -1 else if c5 then -1 else v) =
    if c1 || (c2 || (c3 || (c4 || c5))) then -1 else v.
  Proof. destruct c1, c2, c3, c4, c5; reflexivity. Qed.

  Lemma primal_form : primal_vertices dim periodic ly = filter (fun v => 0 <=? v) (map (fun s => if bad s then -1 else base s) list8).
  Proof.
    unfold primal_vertices. cbv zeta. f_equal. unfold list8. change (zseq 0 2) with [0;1]. cbn [flat_map map app].
    repeat (apply (f_equal2 (@cons Z)); [unfold bad, base, primal_node; rewrite <- if5, <- bd_index_lin; reflexivity|]). reflexivity.
  Qed.
  Lemma in_list8 i j k : In (i,j,k) list8 <-> (i = 0 \/ i = 1) /\ (j = 0 \/ j = 1) /\ (k = 0 \/ k = 1).
  Proof.
    unfold list8. change (zseq 0 2) with [0;1]. cbn [flat_map map app In]. split.
    - intros H. repeat (destruct H as [H|H]; [injection H as <- <- <-; auto|]). destruct H.
    - intros ([-> | ->] & [-> | ->] & [-> | ->]); auto 10.
  Qed.
  Lemma NoDup_list8 : NoDup list8.
  Proof. unfold list8. change (zseq 0 2) with [0;1]. cbn [flat_map map app]. repeat (constructor; [cbn [In]; intuition discriminate|]). constructor. Qed.

  Hypothesis Hdim : 1 <= dim <= 3.
  Hypothesis Hcoord : forall d, 0 <= d < 3 -> 0 <= ly_coord ly d /\ (dim <= d -> ly_coord ly d = 0).
  Hypothesis Hcorner : forall d, 0 <= d < dim -> 1 <= corner_of d < r_gwidth (ly_node ly d).
  Hypothesis Hwidth : forall d, 0 <= d < 3 -> 1 <= r_gwidth (ly_node ly d).

  Lemma bad_false i j k : In (i,j,k) list8 -> (bad (i,j,k) = false <-> allowed 0 i /\ allowed 1 j /\ allowed 2 k).
  Proof.
    intros Hs. apply in_list8 in Hs. destruct Hs as (Hi & Hj & Hk). unfold bad, allowed.
    pose proof (Hcoord 0 ltac:(lia)) as C0. pose proof (Hcoord 1 ltac:(lia)) as C1. pose proof (Hcoord 2 ltac:(lia)) as C2. clear - Hdim Hi Hj Hk C0 C1 C2.
    generalize dependent (ly_coord ly 0). intros x0 C0. generalize dependent (ly_coord ly 1). intros x1 C1. generalize dependent (ly_coord ly 2). intros x2 C2.
    generalize (periodic 0) (periodic 1) (periodic 2). intros p0 p1 p2.
    split.
    - intros H. destruct Hi as [-> | ->], Hj as [-> | ->], Hk as [-> | ->], p0, p1, p2; lia.
    - intros ((_ & A0 & B0) & (_ & A1 & B1) & (_ & A2 & B2)).
      destruct Hi as [-> | ->], Hj as [-> | ->], Hk as [-> | ->];
      repeat match goal with
      | A : ?x = ?x -> _ |- _ => specialize (A eq_refl)
      | A : 0 = 1 -> _ |- _ => clear A
      | A : 1 = 0 -> _ |- _ => clear A
      end; destruct p0, p1, p2; lia.
  Qed.
  Lemma pos_range d b : 0 <= d < 3 -> allowed d b -> 0 <= pos_of d b < r_gwidth (ly_node ly d).
  Proof.
    intros Hd (Hb & H1 & _). unfold pos_of. pose proof (Hwidth d Hd). destruct Hb as [-> | ->]; [change (0 =? 0) with true|change (1 =? 0) with false]; cbv iota; [lia|].
    specialize (H1 eq_refl). pose proof (Hcorner d ltac:(lia)). lia.
  Qed.
  Lemma pos_inj d b b' : 0 <= d < 3 -> allowed d b -> allowed d b' -> pos_of d b = pos_of d b' -> b = b'.
  Proof.
    intros Hd (Hb & H1 & _) (Hb' & H1' & _) E. unfold pos_of in E. destruct Hb as [-> | ->], Hb' as [-> | ->]; auto.
    - specialize (H1' eq_refl). pose proof (Hcorner d ltac:(lia)). change (0 =? 0) with true in E. change (1 =? 0) with false in E. cbv iota in E. lia.
    - specialize (H1 eq_refl). pose proof (Hcorner d ltac:(lia)). change (0 =? 0) with true in E. change (1 =? 0) with false in E. cbv iota in E. lia.
  Qed.
  Lemma primal_in_box i j k : allowed 0 i -> allowed 1 j -> allowed 2 k -> in_box zero3 (fun d => r_gwidth (ly_node ly d)) (primal_node i j k).
  Proof. intros A0 A1 A2. unfold primal_node, in_box, zero3. pose proof (pos_range 0 i ltac:(lia) A0). pose proof (pos_range 1 j ltac:(lia) A1). pose proof (pos_range 2 k ltac:(lia) A2). lia. Qed.
  Lemma base_nonneg i j k : allowed 0 i -> allowed 1 j -> allowed 2 k -> 0 <= base (i,j,k) < vol (fun d => r_gwidth (ly_node ly d)).
  Proof.
    intros A0 A1 A2. pose proof (primal_in_box i j k A0 A1 A2) as B. unfold base. unfold primal_node in *. unfold in_box, zero3 in B. apply lin_range; lia.
  Qed.
  Lemma in_primal v : In v (primal_vertices dim periodic ly) <->
    exists i j k, allowed 0 i /\ allowed 1 j /\ allowed 2 k /\ v = base (i,j,k).
  Proof.
    rewrite primal_form, filter_In, in_map_iff. split.
    - intros ((s & E & Hs) & Hv). destruct s as [[i j] k]. destruct (bad (i,j,k)) eqn:B; [lia|]. apply (bad_false i j k Hs) in B. exists i, j, k. intuition.
    - intros (i & j & k & A0 & A1 & A2 & ->). pose proof (base_nonneg i j k A0 A1 A2). split; [|lia]. exists (i,j,k).
      assert (Hs : In (i,j,k) list8) by (apply in_list8; unfold allowed in *; tauto). split; auto.
      replace (bad (i,j,k)) with false; auto. symmetry. apply (bad_false i j k Hs). auto.
  Qed.
  Lemma filter_map' {A} (p : Z -> bool) (f : A -> Z) l : filter p (map f l) = map f (filter (fun x => p (f x)) l).
  Proof. induction l as [|a l IH]; cbn [map filter]; auto. destruct (p (f a)); cbn [map]; rewrite IH; auto. Qed.
  Lemma NoDup_primal : NoDup (primal_vertices dim periodic ly).
  Proof.
    rewrite primal_form, filter_map'. apply Box.NoDup_map_inj; [|apply NoDup_filter, NoDup_list8].
    intros [[i j] k] [[i' j'] k'] H H' E. apply filter_In in H, H'. destruct H as (Hs & H), H' as (Hs' & H').
    destruct (bad (i,j,k)) eqn:B; [lia|]. destruct (bad (i',j',k')) eqn:B'; [lia|].
    apply (bad_false i j k Hs) in B. apply (bad_false i' j' k' Hs') in B'. destruct B as (A0 & A1 & A2), B' as (A0' & A1' & A2').
    apply (lin_inj _ _ _ (primal_in_box i j k A0 A1 A2) (primal_in_box i' j' k' A0' A1' A2')) in E.
    unfold primal_node in E. injection E as E0 E1 E2.
    rewrite (pos_inj 0 i i' ltac:(lia) A0 A0' E0), (pos_inj 1 j j' ltac:(lia) A1 A1' E1), (pos_inj 2 k k' ltac:(lia) A2 A2' E2). reflexivity.
  Qed.
End List8.

(** * All processes *)
Section Layout.
  Context {O : KnotOrd}.
  Variable g2 : Z -> Z -> Z -> Z.
  Variable g3 : Z -> Z -> Z -> Z -> Z.
  Variable maxint size dim : Z.
  Variable axes : Z -> axis O.
  Variable user : list Z.
  Variable LY : Z -> layout.
  Hypothesis S : setup_ok g2 g3 maxint size dim axes user LY.

  Lemma pr_dims : 1 <= dim <= 3.
  Proof. destruct (setup_form g2 g3 maxint size dim axes user LY S) as (n & _ & _ & H & _). exact H. Qed.

  (** One direction of the layout of process r. *)
  Lemma pr_axis r d : 0 <= r < size -> 0 <= d < dim ->
    exists l P, wf (axes d) l /\ 1 <= P <= ax_nel (axes d) /\ ly_procs (LY r) d = P /\ 0 <= ly_coord (LY r) d < P /\
      ly_node (LY r) d = nrange P (axes d) (ly_coord (LY r) d) /\
      forall r', 0 <= r' < size -> ly_procs (LY r') d = P.
  Proof.
    intros Hr Hd. destruct (setup_form g2 g3 maxint size dim axes user LY S) as (n & Hn & HL & Hdim & Hz & HP & HLY).
    pose proof (setup_wf g2 g3 maxint size dim axes user LY S d Hd) as (l & L & He). exists l, (pad 1 n d).
    pose proof (pad_coords n r d Hn ltac:(lia) ltac:(lia)) as Hc. specialize (HP d Hd).
    split; [exact L|]. split; [exact HP|]. rewrite (HLY r Hr). unfold layout_of. cbn [ly_node ly_coord ly_procs].
    replace (d <? dim) with true by lia. split; [reflexivity|]. split; [exact Hc|]. split; [reflexivity|].
    intros r' Hr'. rewrite (HLY r' Hr'). reflexivity.
  Qed.
  Lemma pr_ends d : 0 <= d < dim -> ends_nonempty (ax_p (axes d)) (ax_m (axes d)) (ax_U (axes d)).
  Proof. intros Hd. pose proof (setup_wf g2 g3 maxint size dim axes user LY S d Hd) as (l & L & He). exact He. Qed.

  Lemma pr_coord r d : 0 <= r < size -> 0 <= d < 3 -> 0 <= ly_coord (LY r) d /\ (dim <= d -> ly_coord (LY r) d = 0).
  Proof.
    intros Hr Hd. destruct (setup_form g2 g3 maxint size dim axes user LY S) as (n & Hn & HL & Hdim & Hz & HP & HLY).
    rewrite (HLY r Hr). unfold layout_of. cbn [ly_coord]. pose proof (pad_coords n r d Hn ltac:(lia) ltac:(lia)) as Hc. split; [lia|].
    intros H. unfold pad. apply nth_overflow. destruct (rank_coords_in_grid n r Hn ltac:(lia)) as (E & _). lia.
  Qed.
  Lemma pr_corner r d : 0 <= r < size -> 0 <= d < dim -> exists l P, wf (axes d) l /\ 1 <= P <= ax_nel (axes d) /\ ly_procs (LY r) d = P /\ 0 <= ly_coord (LY r) d < P /\
    r_gstart (ly_node (LY r) d) + corner_of dim (LY r) d = up (axes d) P (ly_coord (LY r) d) /\
    1 <= corner_of dim (LY r) d < r_gwidth (ly_node (LY r) d).
  Proof.
    intros Hr Hd. destruct (pr_axis r d Hr Hd) as (l & P & L & HP & EP & Hc & En & _). pose proof (pr_ends d Hd) as He. exists l, P.
    pose proof (up_range (axes d) l L He P HP _ Hc) as UR. pose proof (lend_gend (axes d) l L He P HP _ Hc) as LG. cbv zeta in UR, LG. rewrite <- En in UR, LG.
    assert (E : r_gstart (ly_node (LY r) d) + corner_of dim (LY r) d = up (axes d) P (ly_coord (LY r) d)).
    { unfold corner_of, up, upper. rewrite <- En. replace (d <? dim) with true by lia. cbv zeta. rewrite Z.quot_div_nonneg by lia. lia. }
    split; [exact L|]. split; [exact HP|]. split; [exact EP|]. split; [exact Hc|]. split; [exact E|]. lia.
  Qed.

  Lemma pr_same r r' : 0 <= r < size -> 0 <= r' < size -> (forall d, 0 <= d < dim -> ly_coord (LY r) d = ly_coord (LY r') d) -> r = r'.
  Proof.
    intros Hr Hr' H. destruct (setup_form g2 g3 maxint size dim axes user LY S) as (n & Hn & HL & Hdim & Hz & HP & HLY).
    rewrite <- (grid_index_rank_coords n r Hn ltac:(lia)), <- (grid_index_rank_coords n r' Hn ltac:(lia)). f_equal.
    destruct (rank_coords_in_grid n r Hn ltac:(lia)) as (E & _). destruct (rank_coords_in_grid n r' Hn ltac:(lia)) as (E' & _).
    apply (nth_ext _ _ 0 0); [lia|]. intros i Hi. specialize (H (Z.of_nat i) ltac:(lia)). rewrite (HLY r Hr), (HLY r' Hr') in H. unfold layout_of, pad in H. cbn [ly_coord] in H.
    rewrite Nat2Z.id in H. exact H.
  Qed.

  (** Primal positions of different processes along one direction are different nodes. *)
  Lemma pr_pos_global r r' d b b' : 0 <= r < size -> 0 <= r' < size -> 0 <= d < dim ->
    allowed dim (fun d => ax_periodic (axes d)) (LY r) d b -> allowed dim (fun d => ax_periodic (axes d)) (LY r') d b' ->
    (r_gstart (ly_node (LY r) d) + pos_of dim (LY r) d b) mod ax_nnp (axes d) = (r_gstart (ly_node (LY r') d) + pos_of dim (LY r') d b') mod ax_nnp (axes d) ->
    ly_coord (LY r) d = ly_coord (LY r') d.
  Proof.
    intros Hr Hr' Hd A A' E.
    destruct (pr_corner r d Hr Hd) as (l & P & L & HP & EP & Hc & Eu & Hcr). destruct (pr_axis r d Hr Hd) as (_ & P0 & _ & _ & EP0 & _ & _ & Hall).
    destruct (pr_corner r' d Hr' Hd) as (l' & P' & _ & _ & EP' & Hc' & Eu' & Hcr'). rewrite (Hall r' Hr') in EP'. rewrite EP in EP0. subst P0. subst P'.
    pose proof (pr_ends d Hd) as He. destruct A as (Hb & _ & A0), A' as (Hb' & _ & A0').
    pose proof (bd_axis g2 g3 maxint size dim axes user LY S r d Hr Hd) as (_ & K0 & _ & K3 & K4 & _).
    pose proof (bd_axis g2 g3 maxint size dim axes user LY S r' d Hr' Hd) as (_ & K0' & _ & K3' & K4' & _). cbv zeta in K0, K3, K4, K0', K3', K4'.
    destruct (wf_nnp (axes d) l L) as (s & Hs & En). destruct (up_last (axes d) l L He P HP) as (R & U & Rn).
    pose proof L as (_ & (Hp & Hm & _) & _).
    set (c := ly_coord (LY r) d) in *. set (c' := ly_coord (LY r') d) in *.
    set (N := ax_nnp (axes d)) in *. assert (HN : 1 <= N) by (unfold N; clear - En Hs Hm Hp; destruct (ax_periodic (axes d)); lia).
    unfold pos_of in E. destruct Hb as [-> | ->], Hb' as [-> | ->].
    - specialize (A0 eq_refl ltac:(lia)). specialize (A0' eq_refl ltac:(lia)). lia.
    - exfalso. destruct (A0 eq_refl ltac:(lia)) as (Ec & Ep). change (1 =? 0) with false in E. change (0 =? 0) with true in E. cbv iota in E. rewrite Ep in En.
      rewrite (proj1 K4 Ec) in E. change (0 + 0) with 0 in E. rewrite Z.mod_0_l in E by lia. rewrite Z.mod_small in E by lia. lia.
    - exfalso. destruct (A0' eq_refl ltac:(lia)) as (Ec & Ep). change (1 =? 0) with false in E. change (0 =? 0) with true in E. cbv iota in E. rewrite Ep in En.
      rewrite (proj1 K4' Ec) in E. change (0 + 0) with 0 in E. rewrite Z.mod_0_l in E by lia. rewrite Z.mod_small in E by lia. lia.
    - change (1 =? 0) with false in E. cbv iota in E. rewrite Eu, Eu' in E. clear - L He HP Hc Hc' E. apply (up_mod_inj (axes d) l L He P HP); [lia|lia|exact E].
  Qed.

  Lemma pr_hyps r : 0 <= r < size ->
    (forall d, 0 <= d < 3 -> 0 <= ly_coord (LY r) d /\ (dim <= d -> ly_coord (LY r) d = 0)) /\
    (forall d, 0 <= d < dim -> 1 <= corner_of dim (LY r) d < r_gwidth (ly_node (LY r) d)) /\
    (forall d, 0 <= d < 3 -> 1 <= r_gwidth (ly_node (LY r) d)).
  Proof.
    intros Hr. split; [intros; apply pr_coord; auto|]. split.
    - intros d Hd. destruct (pr_corner r d Hr Hd) as (l & P & _ & _ & _ & _ & _ & H). exact H.
    - intros d Hd. pose proof (setup_node_facts g2 g3 maxint size dim axes user LY S r d Hr Hd) as F. lia.
  Qed.

  Definition primal_global (r : Z) : list triple :=
    map (fun v => global_node (node_size dim axes) (fun d => r_gstart (ly_node (LY r) d)) (unlin (fun d => r_gwidth (ly_node (LY r) d)) v))
      (primal_vertices dim (fun d => ax_periodic (axes d)) (LY r)).

  Lemma unlin_base r i j k : 0 <= r < size -> let per := fun d => ax_periodic (axes d) in
    allowed dim per (LY r) 0 i -> allowed dim per (LY r) 1 j -> allowed dim per (LY r) 2 k ->
    unlin (fun d => r_gwidth (ly_node (LY r) d)) (base dim (LY r) (i,j,k)) = primal_node dim (LY r) i j k.
  Proof.
    intros Hr per A0 A1 A2. destruct (pr_hyps r Hr) as (H1 & H2 & H3). pose proof pr_dims as Hdim.
    pose proof (primal_in_box dim per (LY r) H1 H2 H3 i j k A0 A1 A2) as B. unfold base. unfold primal_node in *. unfold in_box, zero3 in B. apply unlin_lin; lia.
  Qed.

  Lemma primal_global_inj r r' v v' : 0 <= r < size -> 0 <= r' < size -> let per := fun d => ax_periodic (axes d) in
    let gn r v := global_node (node_size dim axes) (fun d => r_gstart (ly_node (LY r) d)) (unlin (fun d => r_gwidth (ly_node (LY r) d)) v) in
    In v (primal_vertices dim per (LY r)) -> In v' (primal_vertices dim per (LY r')) -> gn r v = gn r' v' -> r = r' /\ v = v'.
  Proof.
    intros Hr Hr' per gn Hv Hv' E. destruct (pr_hyps r Hr) as (H1 & H2 & H3). destruct (pr_hyps r' Hr') as (H1' & H2' & H3'). pose proof pr_dims as Hdim.
    apply (in_primal dim per (LY r) Hdim H1 H2 H3) in Hv. apply (in_primal dim per (LY r') Hdim H1' H2' H3') in Hv'.
    destruct Hv as (i & j & k & A0 & A1 & A2 & ->), Hv' as (i' & j' & k' & A0' & A1' & A2' & ->).
    unfold gn in E. rewrite (unlin_base r i j k Hr A0 A1 A2), (unlin_base r' i' j' k' Hr' A0' A1' A2') in E.
    assert (Ed : forall d, 0 <= d < 3 -> (r_gstart (ly_node (LY r) d) + coord (primal_node dim (LY r) i j k) d) mod node_size dim axes d =
       (r_gstart (ly_node (LY r') d) + coord (primal_node dim (LY r') i' j' k') d) mod node_size dim axes d).
    { intros d Hd. unfold global_node in E. apply (f_equal (fun t => coord t d)) in E. rewrite !coord_modbox, !coord_tadd in E by lia. exact E. }
    assert (Ab : forall d, 0 <= d < 3 -> exists b b', allowed dim per (LY r) d b /\ allowed dim per (LY r') d b' /\ coord (primal_node dim (LY r) i j k) d = pos_of dim (LY r) d b /\
       coord (primal_node dim (LY r') i' j' k') d = pos_of dim (LY r') d b').
    { apply dir3; [exists i, i'|exists j, j'|exists k, k']; auto. }
    assert (Er : r = r').
    { apply pr_same; auto. intros d Hd. assert (Hd3 : 0 <= d < 3) by (clear - Hd Hdim; lia). destruct (Ab d Hd3) as (b & b' & B & B' & X & X'). specialize (Ed d Hd3). rewrite X, X' in Ed.
      assert (Hlt : (d <? dim) = true) by (clear - Hd; lia). unfold node_size in Ed. rewrite Hlt in Ed. apply (pr_pos_global r r' d b b' Hr Hr' Hd B B' Ed). }
    subst r'. split; auto. f_equal.
    assert (Eb : forall d b b', 0 <= d < 3 -> allowed dim per (LY r) d b -> allowed dim per (LY r) d b' ->
      (r_gstart (ly_node (LY r) d) + pos_of dim (LY r) d b) mod node_size dim axes d = (r_gstart (ly_node (LY r) d) + pos_of dim (LY r) d b') mod node_size dim axes d -> b = b').
    { intros d b b' Hd B B' X. pose proof B as (Hb & Bd & B0). pose proof B' as (Hb' & Bd' & B0').
      assert (Hcase : forall x y : Z, allowed dim per (LY r) d 0 -> allowed dim per (LY r) d 1 ->
         (r_gstart (ly_node (LY r) d) + pos_of dim (LY r) d 0) mod node_size dim axes d = (r_gstart (ly_node (LY r) d) + pos_of dim (LY r) d 1) mod node_size dim axes d -> x = y).
      { intros x y Q0 Q1 QE. exfalso. destruct Q0 as (_ & _ & Q0). destruct Q1 as (_ & Q1 & _). specialize (Q1 eq_refl). destruct (Q0 eq_refl Q1) as (Qc & Qp).
        assert (Hdd : 0 <= d < dim) by (clear - Hd Q1; lia). assert (Hlt : (d <? dim) = true) by (clear - Q1; lia).
        pose proof (bd_axis g2 g3 maxint size dim axes user LY S r d Hr Hdd) as (_ & K0 & _ & K3 & K4 & _). cbv zeta in K0, K3, K4.
        pose proof (H2 d Hdd) as Hcr. destruct (pr_axis r d Hr Hdd) as (l & P & L & _). destruct (wf_nnp (axes d) l L) as (s & Hs & En).
        unfold per in Qp. rewrite Qp in En. unfold node_size in QE. rewrite Hlt in QE. pose proof (proj1 K4 Qc) as K5. rewrite K5 in QE. rewrite K5 in K3. clear - QE K3 Hcr En.
        unfold pos_of in QE. change (0 =? 0) with true in QE. change (1 =? 0) with false in QE. cbv iota in QE. rewrite !Z.mod_small in QE by lia. lia. }
      destruct Hb as [-> | ->], Hb' as [-> | ->]; auto; apply Hcase; auto. }
    f_equal; [f_equal|].
    - apply (Eb 0); [lia|exact A0|exact A0'|exact (Ed 0 ltac:(lia))].
    - apply (Eb 1); [lia|exact A1|exact A1'|exact (Ed 1 ltac:(lia))].
    - apply (Eb 2); [lia|exact A2|exact A2'|exact (Ed 2 ltac:(lia))].
  Qed.

  Lemma primal_NoDup_local r : 0 <= r < size -> NoDup (primal_vertices dim (fun d => ax_periodic (axes d)) (LY r)).
  Proof. intros Hr. destruct (pr_hyps r Hr) as (H1 & H2 & H3). apply NoDup_primal; auto. apply pr_dims. Qed.
  Lemma primal_global_NoDup : NoDup (flat_map primal_global (zseq 0 size)).
  Proof.
    apply NoDup_flat_map; [apply NoDup_zseq| |].
    - intros r Hr. apply in_zseq in Hr. unfold primal_global. apply Box.NoDup_map_inj; [|apply primal_NoDup_local; lia].
      intros v v' Hv Hv' E. apply (primal_global_inj r r v v' ltac:(lia) ltac:(lia) Hv Hv' E).
    - intros r r' x Hr Hr' Hx Hx'. apply in_zseq in Hr, Hr'. unfold primal_global in *. apply in_map_iff in Hx, Hx'.
      destruct Hx as (v & <- & Hv), Hx' as (v' & E & Hv'). symmetry in E. apply (primal_global_inj r r' v v' ltac:(lia) ltac:(lia) Hv Hv' E).
  Qed.

  (** The corners of a domain without periodic directions. *)
  Lemma primal_corners (hi : Z -> bool) : (forall d, 0 <= d < dim -> ax_periodic (axes d) = false) ->
    In (tri (fun d => if hi d then node_size dim axes d - 1 else 0)) (flat_map primal_global (zseq 0 size)).
  Proof.
    intros Hper. pose proof pr_dims as Hdim. destruct (setup_form g2 g3 maxint size dim axes user LY S) as (n & Hn & HL & _ & Hz & HP & HLY).
    set (cs := map (fun d => if hi d then pad 1 n d - 1 else 0) (zseq 0 dim)).
    assert (Hcs : forall d, 0 <= d < dim -> pad 0 cs d = if hi d then pad 1 n d - 1 else 0).
    { intros d Hd. unfold pad at 1. unfold cs. rewrite (nth_indep _ 0 ((fun d => if hi d then pad 1 n d - 1 else 0) 0)) by (rewrite map_length, length_zseq; lia).
      rewrite (map_nth (fun d => if hi d then pad 1 n d - 1 else 0)), nth_zseq by lia. cbv beta. rewrite Z2Nat.id by lia. reflexivity. }
    assert (Hg : in_grid n cs).
    { split; [unfold cs; rewrite map_length, length_zseq; lia|].
      assert (G : forall (x y : list Z), length x = length y -> (forall i, (i < length x)%nat -> 0 <= nth i y 0 < nth i x 1) -> Forall2 (fun nk ck => 0 <= ck < nk) x y).
      { induction x as [|a x IH]; intros [|b y] El H; cbn [length] in El; try lia; constructor; [apply (H 0%nat); cbn; lia|]. apply IH; [lia|]. intros i Hi. apply (H (Datatypes.S i)). cbn [length]. lia. }
      apply G; [unfold cs; rewrite map_length, length_zseq; lia|]. intros i Hi. specialize (Hcs (Z.of_nat i) ltac:(lia)). specialize (HP (Z.of_nat i) ltac:(lia)).
      unfold pad in Hcs, HP. rewrite Nat2Z.id in Hcs, HP. rewrite Hcs. destruct (hi (Z.of_nat i)); lia. }
    destruct (rank_coords_grid_index n cs Hn Hg) as (Ec & Hr). set (r := grid_index n cs) in *. rewrite Hz in Hr.
    apply in_flat_map. exists r. split; [apply in_zseq; lia|].
    set (per := fun d => ax_periodic (axes d)).
    assert (Ecd : forall d, 0 <= d < dim -> ly_coord (LY r) d = if hi d then pad 1 n d - 1 else 0).
    { intros d Hd. rewrite (HLY r Hr). unfold layout_of. cbn [ly_coord]. rewrite Ec. apply Hcs; auto. }
    assert (Epd : forall d, ly_procs (LY r) d = pad 1 n d) by (intros d; rewrite (HLY r Hr); reflexivity).
    set (b := fun d => if (d <? dim) && hi d then 1 else 0).
    assert (A : forall d, 0 <= d < 3 -> allowed dim per (LY r) d (b d)).
    { intros d Hd. unfold allowed, b. destruct (d <? dim) eqn:E1; cbn [andb]; [destruct (hi d) eqn:E2|].
      - split; [auto|]. split; [lia|intros; discriminate].
      - split; [auto|]. split; [intros; discriminate|]. intros _ Hd'. rewrite (Ecd d ltac:(lia)), E2. split; auto. apply Hper. lia.
      - split; [auto|]. split; [intros; discriminate|]. intros; lia. }
    destruct (pr_hyps r Hr) as (H1 & H2 & H3).
    unfold primal_global. apply in_map_iff. exists (base dim (LY r) (b 0, b 1, b 2)). split.
    - rewrite unlin_base by (auto; apply A; lia). apply tri_ext. intros d Hd. rewrite coord_tri by lia. unfold global_node. rewrite coord_modbox, coord_tadd by lia.
      assert (Ecoord : coord (primal_node dim (LY r) (b 0) (b 1) (b 2)) d = pos_of dim (LY r) d (b d)) by (revert d Hd; apply dir3; reflexivity). rewrite Ecoord. clear Ecoord.
      pose proof (setup_node_facts g2 g3 maxint size dim axes user LY S r d Hr Hd) as F. unfold node_size in *.
      destruct (d <? dim) eqn:E1.
      + pose proof (bd_axis g2 g3 maxint size dim axes user LY S r d Hr ltac:(lia)) as (K & K0 & _ & K3 & K4 & K5 & _). cbv zeta in K0, K3, K4, K5.
        destruct (pr_corner r d Hr ltac:(lia)) as (l & P & L & HPd & EP & Hc & Eu & Hcr). pose proof (pr_ends d ltac:(lia)) as He.
        destruct (wf_nnp (axes d) l L) as (s & Hs & En). rewrite (Hper d ltac:(lia)) in En.
        destruct (up_last (axes d) l L He P HPd) as (R & U & Rn). rewrite (Rn (Hper d ltac:(lia))) in U. change (0 / 2) with 0 in U.
        specialize (Ecd d ltac:(lia)). rewrite Epd in EP. unfold b. rewrite E1. cbn [andb]. destruct (hi d); unfold pos_of.
        * change (1 =? 0) with false. cbv iota. rewrite Eu. rewrite Ecd, EP, U. rewrite Z.mod_small by lia. lia.
        * change (0 =? 0) with true. cbv iota. rewrite (proj1 K4 Ecd). apply Z.mod_0_l. lia.
      + unfold b. rewrite E1. cbn [andb]. rewrite Z.mod_1_r. destruct (hi d); lia.
    - apply (in_primal dim per (LY r) Hdim H1 H2 H3). exists (b 0), (b 1), (b 2). split; [apply A; lia|]. split; [apply A; lia|]. split; [apply A; lia|]. reflexivity.
  Qed.

  Lemma primal_nonempty r : 0 <= r < size -> primal_vertices dim (fun d => ax_periodic (axes d)) (LY r) <> [].
  Proof.
    intros Hr. pose proof pr_dims as Hdim. destruct (pr_hyps r Hr) as (H1 & H2 & H3). set (per := fun d => ax_periodic (axes d)).
    set (b := fun d => if d <? dim then 1 else 0).
    assert (A : forall d, 0 <= d < 3 -> allowed dim per (LY r) d (b d)).
    { intros d Hd. unfold allowed, b. destruct (d <? dim) eqn:E1.
      - split; [auto|]. split; [lia|intros; discriminate].
      - split; [auto|]. split; [intros; discriminate|]. intros; lia. }
    intros E. assert (X : In (base dim (LY r) (b 0, b 1, b 2)) (primal_vertices dim per (LY r))).
    { apply (in_primal dim per (LY r) Hdim H1 H2 H3). exists (b 0), (b 1), (b 2). split; [apply A; lia|]. split; [apply A; lia|]. split; [apply A; lia|]. reflexivity. }
    rewrite E in X. destruct X.
  Qed.
End Layout.
