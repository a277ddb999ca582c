(** Lemmas for the probe: the piece of the field over the spans of a point is the field. *)
From Coq Require Import ZArith List Bool Lia Reals Lra Psatz Permutation.
From Coq Require Import ZifyBool ZifyNat.
From Verif Require Import Prelude RealOrd AxisModel AxisSpec AxisProofs Box GridModel GridSpec GridProofs GridProps ElemSpec
  BasModel BasSpec BasProps MapModel MapSpec ProbeModel ProbeSpec ProbeProofs.
Import ListNotations.
Open Scope Z_scope.

Lemma rsum_subbox (f : triple -> R) lo n M :
  (forall t, in_box lo n t -> in_box zero3 M t) -> (forall t, in_box zero3 M t -> ~ in_box lo n t -> f t = 0%R) ->
  rsum f (box zero3 M) = rsum f (box lo n).
Proof.
  intros H1 H2.
  set (inb := fun t : triple => let '(i, j, k) := t in
    (lo 0 <=? i) && (i <? lo 0 + n 0) && (lo 1 <=? j) && (j <? lo 1 + n 1) && (lo 2 <=? k) && (k <? lo 2 + n 2)).
  assert (HI : forall t, inb t = true <-> in_box lo n t) by (intros [[i j] k]; unfold inb, in_box; lia).
  transitivity (rsum f (filter inb (box zero3 M))).
  - assert (G : forall l, (forall t, In t l -> in_box zero3 M t) -> rsum f l = rsum f (filter inb l)).
    { induction l as [|t l IH]; intros Hl; [reflexivity|]. cbn [filter]. rewrite rsum_cons. rewrite IH by (intros; apply Hl; right; auto).
      destruct (inb t) eqn:Q; [rewrite rsum_cons; reflexivity|]. rewrite H2; [lra|apply Hl; left; auto|]. rewrite <- HI. congruence. }
    apply G. intros t Ht. apply In_box. exact Ht.
  - apply rsum_perm. apply NoDup_Permutation; [apply NoDup_filter, NoDup_box|apply NoDup_box|].
    intros t. rewrite filter_In, !In_box, HI. split; [tauto|]. auto.
Qed.

Section Global.
  Variables (dim : Z) (axes : Z -> axis Rord) (u : Z -> R) (k : Z -> Z).
  Hypothesis Hd : 1 <= dim <= 3.
  Hypothesis HN : forall d, 0 <= d < dim -> nondecreasing (O:=Rord) (ax_m (axes d)) (ax_U (axes d)) /\ 0 <= ax_p (axes d).
  Hypothesis Hk : spans_of dim axes u k.
  Hypothesis Hlt : forall d, 0 <= d < dim -> (u d < ax_U (axes d) (k d + 1)%Z)%R.

  Let p d := if d <? dim then ax_p (axes d) else 0.
  Let lo d := if d <? dim then k d - p d else 0.
  Let n d := p d + 1.
  Let M d := if d <? dim then ax_m (axes d) - ax_p (axes d) else 1.

  Lemma piece_is_bspline d i : 0 <= d < dim -> 0 <= i <= ax_p (axes d) ->
    bspline_piece (ax_U (axes d)) (k d) (Z.to_nat (ax_p (axes d))) (k d - ax_p (axes d) + i) (u d) =
    bspline (ax_U (axes d)) (Z.to_nat (ax_p (axes d))) (k d - ax_p (axes d) + i) (u d).
  Proof using HN Hk Hlt.
    intros Hdd Hi. destruct (HN d Hdd) as [N1 N2]. destruct (Hk d Hdd) as (K1 & K2 & K3 & _).
    destruct (bspline_rows_any (ax_p (axes d)) (ax_m (axes d)) (ax_U (axes d)) (k d) 0 (fun _ _ _ => 0%R) (fun _ _ _ => 0%R) (fun _ _ _ => 0%R) (fun _ _ => 0%R) (fun _ _ => 0%R) N1 N2 K1 K2) as [R1 _].
    rewrite <- R1 by lia.
    destruct (C30_values_are_bsplines (ax_p (axes d)) (ax_m (axes d)) (ax_U (axes d)) (k d) (u d) 0 (fun _ _ => 0%R) (fun _ _ => 0%R) (fun _ _ => 0%R) (fun _ => 0%R) (fun _ => 0%R) N1 N2 K1 K2 ltac:(lia)) as [R2 _].
    apply R2; [|exact Hi]. split; [exact K3|apply Hlt; exact Hdd].
  Qed.
  Lemma bspline_support d c : 0 <= d < dim -> 0 <= c < ax_m (axes d) - ax_p (axes d) -> c < k d - ax_p (axes d) \/ k d < c ->
    bspline (ax_U (axes d)) (Z.to_nat (ax_p (axes d))) c (u d) = 0%R.
  Proof using HN Hk Hlt.
    intros Hdd Hc Ho. destruct (HN d Hdd) as [N1 N2]. destruct (Hk d Hdd) as (K1 & K2 & K3 & _).
    destruct (C30_values_are_bsplines (ax_p (axes d)) (ax_m (axes d)) (ax_U (axes d)) (k d) (u d) 0 (fun _ _ => 0%R) (fun _ _ => 0%R) (fun _ _ => 0%R) (fun _ => 0%R) (fun _ => 0%R) N1 N2 K1 K2 ltac:(lia)) as [R2 _].
    apply R2; auto.
  Qed.

  Lemma Hp d : 0 <= d < 3 -> 0 <= p d.
  Proof using Hd HN Hk Hlt. intros H. unfold p. destruct (d <? dim) eqn:Q; [|lia]. destruct (HN d ltac:(lia)); auto. Qed.

  (** Function a of the element. *)
  Lemma piece_product t : in_box lo n t ->
    let a := lin n (tsub lo t) + 1 in
    active_node dim axes k a = t /\ piece_functions dim axes k a (fun d => u (d-1)) = bspline_product dim axes u t.
  Proof using Hd HN Hk Hlt.
    intros Ht a. destruct t as [[i j] l]. unfold in_box in Ht. unfold tsub in a.
    pose proof (unlin_lin n (i - lo 0) (j - lo 1) (l - lo 2) ltac:(lia) ltac:(lia)) as UL.
    assert (P0 : 0 < n 0) by (unfold n; pose proof (Hp 0 ltac:(lia)); lia). assert (P1 : 0 < n 1) by (unfold n; pose proof (Hp 1 ltac:(lia)); lia).
    unfold unlin in UL. rewrite <- Z.div_div in UL by lia.
    replace (lin n (i - lo 0, j - lo 1, l - lo 2)) with (a - 1) in UL by (unfold a; lia). clearbody a.
    injection UL as E0 E1 E2. split.
    - change (active_node dim axes k a) with (lo 0 + (a-1) mod n 0, lo 1 + (a-1) / n 0 mod n 1, lo 2 + (a-1) / n 0 / n 1).
      rewrite E0, E1, E2. f_equal; [f_equal|]; lia.
    - change (piece_functions dim axes k a (fun d => u (d-1))) with (fold_right Rmult 1%R (map (fun d =>
        bspline_piece (ax_U (axes (d-1))) (k (d-1)) (Z.to_nat (p (d-1))) (k (d-1) - p (d-1) +
          ((if d =? 1 then (a-1) mod n 0 + 1 else if d =? 2 then (a-1) / n 0 mod n 1 + 1 else (a-1) / n 0 / n 1 + 1) - 1)) (u (d-1))) (zseq 1 dim))).
      unfold bspline_product. rewrite E0, E1, E2.
      assert (FE : forall d, 0 <= d < dim -> forall i', i' = coord (i, j, l) d - lo d + 1 ->
        bspline_piece (ax_U (axes d)) (k d) (Z.to_nat (p d)) (k d - p d + (i' - 1)) (u d) = bspline (ax_U (axes d)) (Z.to_nat (ax_p (axes d))) (coord (i, j, l) d) (u d)).
      { intros d Hdd i' ->. unfold p. replace (d <? dim) with true by lia.
        assert (Q : lo d = k d - ax_p (axes d)) by (unfold lo, p; replace (d <? dim) with true by lia; reflexivity).
        assert (Q2 : n d = ax_p (axes d) + 1) by (unfold n, p; replace (d <? dim) with true by lia; reflexivity).
        assert (B : lo d <= coord (i, j, l) d < lo d + n d).
        { assert (C : d = 0 \/ d = 1 \/ d = 2) by lia. destruct C as [-> | [-> | ->]]; [change (coord (i, j, l) 0) with i|change (coord (i, j, l) 1) with j|change (coord (i, j, l) 2) with l]; lia. }
        rewrite piece_is_bspline by lia. f_equal. lia. }
      assert (C : dim = 1 \/ dim = 2 \/ dim = 3) by lia. destruct C as [C | [C | C]]; rewrite C in *.
      + change (zseq 1 1) with [1]. change (zseq 0 1) with [0]. cbn [map fold_right]. change (1 =? 1) with true. cbv iota. change (1 - 1) with 0.
        rewrite (FE 0) by (change (coord (i, j, l) 0) with i; lia). reflexivity.
      + change (zseq 1 2) with [1; 2]. change (zseq 0 2) with [0; 1]. cbn [map fold_right]. change (1 =? 1) with true. change (2 =? 1) with false. change (2 =? 2) with true. cbv iota.
        change (1 - 1) with 0. change (2 - 1) with 1. rewrite (FE 0) by (change (coord (i, j, l) 0) with i; lia). rewrite (FE 1) by (change (coord (i, j, l) 1) with j; lia). reflexivity.
      + change (zseq 1 3) with [1; 2; 3]. change (zseq 0 3) with [0; 1; 2]. cbn [map fold_right]. change (1 =? 1) with true. change (2 =? 1) with false. change (2 =? 2) with true.
        change (3 =? 1) with false. change (3 =? 2) with false. cbv iota. change (1 - 1) with 0. change (2 - 1) with 1. change (3 - 1) with 2.
        rewrite (FE 0) by (change (coord (i, j, l) 0) with i; lia). rewrite (FE 1) by (change (coord (i, j, l) 1) with j; lia). rewrite (FE 2) by (change (coord (i, j, l) 2) with l; lia). reflexivity.
  Qed.

  Lemma product_zero t : in_box zero3 M t -> ~ in_box lo n t -> bspline_product dim axes u t = 0%R.
  Proof using Hd HN Hk Hlt.
    intros Ht Hn. destruct t as [[i j] l]. unfold in_box, zero3 in *.
    assert (X : exists d, 0 <= d < 3 /\ ~ (lo d <= coord (i, j, l) d < lo d + n d)).
    { destruct (Z_le_dec (lo 0) i); [destruct (Z_lt_dec i (lo 0 + n 0))|].
      - destruct (Z_le_dec (lo 1) j); [destruct (Z_lt_dec j (lo 1 + n 1))|].
        + exists 2. change (coord (i, j, l) 2) with l. split; lia.
        + exists 1. change (coord (i, j, l) 1) with j. split; lia.
        + exists 1. change (coord (i, j, l) 1) with j. split; lia.
      - exists 0. change (coord (i, j, l) 0) with i. split; lia.
      - exists 0. change (coord (i, j, l) 0) with i. split; lia. }
    destruct X as (d & Hd3 & X).
    assert (B : 0 <= coord (i, j, l) d < M d).
    { assert (C : d = 0 \/ d = 1 \/ d = 2) by lia. destruct C as [-> | [-> | ->]]; [change (coord (i, j, l) 0) with i|change (coord (i, j, l) 1) with j|change (coord (i, j, l) 2) with l]; lia. }
    destruct (Z_lt_dec d dim) as [L|G].
    2:{ exfalso. unfold M, lo, n, p in B, X. replace (d <? dim) with false in B, X by lia. lia. }
    assert (Z0 : bspline (ax_U (axes d)) (Z.to_nat (ax_p (axes d))) (coord (i, j, l) d) (u d) = 0%R).
    { apply bspline_support; [lia|unfold M in B; replace (d <? dim) with true in B by lia; lia|].
      unfold lo, n, p in X. replace (d <? dim) with true in X by lia. lia. }
    unfold bspline_product. assert (I : In d (zseq 0 dim)) by (apply in_zseq; lia). revert I. generalize (zseq 0 dim).
    induction l0 as [|x l0 IH]; intros I; [destruct I|]. cbn [map fold_right]. destruct I as [->|I]; [rewrite Z0; ring|rewrite (IH I); ring].
  Qed.

  Lemma piece_sum (g : triple -> R) :
    rsum (fun a => g (active_node dim axes k a) * piece_functions dim axes k a (fun d => u (d-1)))%R (zseq 1 (piece_nen dim axes)) =
    rsum (fun t => g t * bspline_product dim axes u t)%R (control_points dim axes).
  Proof using Hd HN Hk Hlt.
    unfold control_points. fold M. rewrite (rsum_subbox _ lo n M).
    - transitivity (rsum (fun x => g (active_node dim axes k (x+1)) * piece_functions dim axes k (x+1) (fun d => u (d-1)))%R (zseq 0 (vol n))).
      + replace (piece_nen dim axes) with (vol n) by (change (piece_nen dim axes) with (n 0 * n 1 * n 2); unfold vol; ring).
        assert (Z1 : zseq 1 (vol n) = map (fun x => x + 1) (zseq 0 (vol n))) by (unfold zseq; rewrite map_map; apply map_ext; intros; lia).
        rewrite Z1, rsum_map. reflexivity.
      + pose proof (Hp 0 ltac:(lia)). pose proof (Hp 1 ltac:(lia)). pose proof (Hp 2 ltac:(lia)).
        rewrite (rsum_box _ lo n) by (unfold n; lia). apply rsum_ext. intros t Ht. apply In_box in Ht.
        destruct (piece_product t Ht) as [-> ->]. reflexivity.
    - intros [[i j] l]. unfold in_box, zero3.
      assert (B : forall d x, 0 <= d < 3 -> lo d <= x < lo d + n d -> 0 <= x < 0 + M d).
      { intros d x Hd3 Hx. unfold M, lo, n, p in *. destruct (d <? dim) eqn:Q; [|lia]. destruct (Hk d ltac:(lia)) as (K1 & _). lia. }
      intros (A & B1 & C). split; [apply B; [lia|exact A]|split; apply B; [lia|exact B1|lia|exact C]].
    - intros t H1 H2. rewrite (product_zero t H1 H2). ring.
  Qed.

  Lemma piece_is_field w A c : piece_field dim axes k w A c (fun d => u (d-1)) = spline_field dim axes w A c u.
  Proof using Hd HN Hk Hlt.
    unfold piece_field, spline_field, piece_weight. destruct w as [w|].
    - rewrite (piece_sum w). f_equal. etransitivity; [|etransitivity; [apply (piece_sum (fun t => A t c * w t)%R)|]]; apply rsum_ext; intros; cbv beta; ring.
    - etransitivity; [|apply (piece_sum (fun t => A t c))]. unfold Rdiv. rewrite Rinv_1, Rmult_1_r. apply rsum_ext; intros; cbv beta; ring.
  Qed.
End Global.
