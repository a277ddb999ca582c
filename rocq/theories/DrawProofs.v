(** Lemmas for the draw grid. *)
From Coq Require Import ZArith List Bool Lia Reals Lra Psatz.
From Coq Require Import ZifyBool ZifyNat.
From Verif Require Import Prelude RealOrd AxisModel AxisSpec AxisProofs AxisInitModel PartModel PartSpec PartProofs SetupModel SetupProofs SetupProps
  GridModel GridSpec GridProofs GridProofs2 GridSetup GridProps ElemModel ElemSpec ElemProofs AsmProofs ElemProps
  MapModel AxisProps ProbeModel ProbeSpec ProbeProofs2 ProbeProofs3 DrawModel Box.
Import ListNotations.
Open Scope Z_scope.

(** ** coordinates along a line of the process grid *)
Fixpoint strides (n : list Z) (d : nat) : Z :=
  match d, n with
  | O, _ => 1
  | S d, n0 :: n => n0 * strides n d
  | S _, [] => 1
  end.
Lemma line_coords : forall n d r c, Forall (fun a => 1 <= a) n -> (d < length n)%nat -> 0 <= r < zprod n ->
  0 <= c < nth d n 1 ->
  let r' := r + (c - nth d (rank_coords n r) 0) * strides n d in
  0 <= r' < zprod n /\ nth d (rank_coords n r') 0 = c.
Proof.
  induction n as [|a n IH]; intros d r c HF Hd Hr Hc; cbn [length] in Hd; [lia|].
  cbv zeta. inversion HF as [|? ? Ha HF']; subst.
  cbn [zprod fold_right] in Hr. fold (zprod n) in Hr. cbn [rank_coords].
  pose proof (Z.mod_pos_bound r a ltac:(lia)) as Hm. pose proof (Z.div_mod r a ltac:(lia)) as Hdm.
  assert (Hdiv : (r - r mod a) / a = r / a).
  { replace (r - r mod a) with (r / a * a) by lia. apply Z.div_mul. lia. }
  assert (Hq : 0 <= r / a < zprod n) by (split; [apply Z.div_pos; lia|apply Z.div_lt_upper_bound; lia]).
  destruct d as [|d]; cbn [nth strides].
  - cbn [nth] in Hc. assert (Hr' : r + (c - r mod a) * 1 = c + r / a * a) by lia.
    rewrite Hr'. rewrite Z.mod_add, Z.mod_small by lia. split; [|reflexivity]. change (zprod (a :: n)) with (a * zprod n). nia.
  - cbn [nth] in Hc. rewrite Hdiv. specialize (IH d (r/a) c HF' ltac:(lia) Hq Hc). cbv zeta in IH. destruct IH as [I1 I2].
    set (s := (c - nth d (rank_coords n (r / a)) 0) * strides n d) in *.
    assert (Hr' : r + (c - nth d (rank_coords n (r / a)) 0) * (a * strides n d) = r mod a + (r/a + s) * a) by (unfold s; lia).
    rewrite Hr'. rewrite Z.mod_add, Z.mod_mod by lia. replace (r mod a + (r/a + s) * a - r mod a) with ((r/a+s) * a) by lia. rewrite Z.div_mul by lia.
    split; [|exact I2]. change (zprod (a :: n)) with (a * zprod n). nia.
Qed.

(** ** one direction *)
Section Dir.
  Variables (P nel res : Z).
  Hypothesis HP : 1 <= P <= nel.
  Hypothesis Hres : 1 <= res.
  Definition dw (c : Z) : Z := dist_n P nel c * res + (if c =? P-1 then 1 else 0).
  Lemma draw_tiles : tiles P (nel * res + 1) (fun c => dist_s P nel c * res) dw.
  Proof using HP Hres.
    destruct (dist_tiles P nel ltac:(lia) ltac:(lia)) as (T1 & T2 & T3 & T4 & T5).
    split; [lia|]. split; [rewrite T2; lia|]. split; [|split].
    - intros r Hr. unfold dw. specialize (T3 r Hr). destruct (r =? P-1); nia.
    - intros r Hr. unfold dw. replace (r =? P-1) with false by lia. cbv beta. rewrite T4 by lia. clear. ring.
    - unfold dw. rewrite Z.eqb_refl. cbv beta. replace (nel * res) with ((dist_s P nel (P-1) + dist_n P nel (P-1)) * res) by (rewrite T5; reflexivity). clear. ring.
  Qed.
  Lemma sum_prefix c : 0 <= c < P -> fold_left Z.add (firstn (Z.to_nat c) (map dw (zseq 0 P))) 0 = dist_s P nel c * res.
  Proof using HP Hres.
    destruct draw_tiles as (_ & T2 & _ & T4 & _).
    assert (G : forall k, (k < Z.to_nat P)%nat -> fold_left Z.add (firstn k (map dw (zseq 0 P))) 0 = dist_s P nel (Z.of_nat k) * res).
    { induction k as [|k IH]; intros Hk; [symmetry; exact T2|].
      assert (Hs : firstn (S k) (map dw (zseq 0 P)) = firstn k (map dw (zseq 0 P)) ++ [dw (Z.of_nat k)]).
      { rewrite <- (firstn_skipn k (map dw (zseq 0 P))) at 1. rewrite firstn_app, firstn_firstn, Nat.min_r by lia.
        rewrite firstn_length, map_length, length_zseq, Nat.min_l by lia. f_equal. replace (S k - k)%nat with 1%nat by lia.
        assert (Hn : nth_error (map dw (zseq 0 P)) k = Some (dw (Z.of_nat k))).
        { rewrite nth_error_map. rewrite (nth_error_nth' _ 0) by (rewrite length_zseq; lia). cbn. rewrite nth_zseq by lia. reflexivity. }
        clear - Hn. revert Hn. generalize (dw (Z.of_nat k)) as v. generalize (map dw (zseq 0 P)) as l. induction k as [|k IHk]; intros l v Hn; destruct l as [|y l]; try discriminate Hn; [injection Hn as ->; reflexivity|exact (IHk l v Hn)]. }
      rewrite Hs, fold_left_app. cbn [fold_left]. rewrite IH by lia. pose proof (T4 (Z.of_nat k) ltac:(lia)) as T4'. cbv beta in T4'. rewrite Nat2Z.inj_succ. unfold Z.succ. lia. }
    intros Hc. rewrite G by lia. rewrite Z2Nat.id by lia. reflexivity.
  Qed.
  Lemma local_elem c x : 0 <= c < P -> dist_s P nel c * res <= x < dist_s P nel c * res + dw c ->
    exists e, dist_s P nel c <= e < dist_s P nel c + dist_n P nel c /\ 0 <= e < nel /\
      ((x / res = e /\ e <> nel /\ 0 <= x mod res < res) \/ (x / res = nel /\ e = nel - 1 /\ c = P - 1 /\ x = nel * res)).
  Proof using HP Hres.
    intros Hc Hx. destruct (dist_tiles P nel ltac:(lia) ltac:(lia)) as (T1 & T2 & T3 & T4 & T5).
    pose proof (tiles_bounds _ _ _ _ (dist_tiles P nel ltac:(lia) ltac:(lia)) c Hc) as TB.
    pose proof (dist_pos P nel c ltac:(lia) ltac:(lia)) as Hw.
    pose proof (Z.div_mod x res ltac:(lia)) as Hdm. pose proof (Z.mod_pos_bound x res ltac:(lia)) as Hm.
    set (e := x / res) in *. set (s := dist_s P nel c) in *. set (w := dist_n P nel c) in *. unfold dw in Hx. fold w in Hx.
    assert (H1 : s <= e) by nia.
    destruct (Z_lt_dec e (s + w)) as [L|L].
    - exists e. split; [lia|]. split; [lia|]. left. lia.
    - assert (Hl : c =? P-1 = true) by (destruct (c =? P-1) eqn:Q; [reflexivity|exfalso; nia]). rewrite Hl in Hx.
      assert (c = P-1) by lia. assert (s + w = nel) by (subst s w; replace c with (P-1) by lia; exact T5).
      assert (e = nel) by nia. exists (nel-1). split; [lia|]. split; [lia|]. right. split; [auto|]. split; [lia|]. split; [auto|]. nia.
  Qed.
End Dir.

(** ** points *)
Lemma lagrange_span (a : axis Rord) l x res e : wf a l -> ends_nonempty (ax_p a) (ax_m a) (ax_U a) -> 1 <= res -> 0 <= e < ax_nel a ->
  ((x / res = e /\ e <> ax_nel a /\ 0 <= x mod res < res) \/ (x / res = ax_nel a /\ e = ax_nel a - 1)) ->
  let U := ax_U a in let k := span_at a e in let p := ax_p a in let m := ax_m a in
  p <= k <= m - p - 1 /\ (U k < U (k+1)%Z)%R /\
  (U k <= lagrange_point x res a)%R /\ ((lagrange_point x res a < U (k+1)%Z)%R \/ (k = m-p-1 /\ lagrange_point x res a = U (m-p)%Z)).
Proof.
  intros Hwf He Hres Hn Hx. cbv zeta. pose proof (span_at_elem a l Hwf e Hn) as [K1 K2]. apply klt_R in K2.
  pose proof (wf_ends a l Hwf He) as (_ & _ & We). destruct Hwf as (_ & (Hp & _) & _).
  assert (Hr : (0 < IZR res)%R) by (apply IZR_lt; lia).
  split; [exact K1|]. split; [exact K2|]. unfold lagrange_point. replace (ax_p a =? 0) with false by lia.
  destruct Hx as [(X1 & X2 & X3)|(X1 & X2)]; rewrite X1.
  - replace (e =? ax_nel a) with false by lia.
    assert (Hi : (0 <= IZR (x mod res) / IZR res < 1)%R).
    { split; [apply Rmult_le_pos; [apply IZR_le; lia|left; apply Rinv_0_lt_compat; exact Hr]|].
      apply Rmult_lt_reg_r with (IZR res); [exact Hr|]. unfold Rdiv. rewrite Rmult_assoc, Rinv_l by lra. rewrite Rmult_1_r, Rmult_1_l. apply IZR_lt. lia. }
    set (U0 := ax_U a (span_at a e)) in *. set (U1 := ax_U a (span_at a e + 1)) in *. set (i := (IZR (x mod res) / IZR res)%R) in *. clearbody U0 U1 i.
    change (U0 < U1)%R in K2. change ((U0 <= U0 + i * (U1 - U0))%R /\ ((U0 + i * (U1 - U0) < U1)%R \/ (span_at a e = ax_m a - ax_p a - 1 /\ (U0 + i * (U1-U0) = ax_U a (ax_m a - ax_p a))%R))).
    assert (Hd : (0 < U1 - U0)%R) by lra. split; [nra|left; nra].
  - rewrite Z.eqb_refl. rewrite <- X2 in *. assert (H1 : (IZR res / IZR res = 1)%R) by (field; lra). rewrite H1.
    set (U0 := ax_U a (span_at a e)) in *. set (U1 := ax_U a (span_at a e + 1)) in *.
    change (U0 < U1)%R in K2.
    assert (HU1 : U1 = ax_U a (ax_m a - ax_p a)) by (unfold U1; f_equal; rewrite We; lia).
    split; [change (U0 <= U0 + 1 * (U1 - U0))%R; lra|]. right. split; [exact We|].
    rewrite <- HU1. change ((U0 + 1 * (U1 - U0))%R = U1). clearbody U0 U1. revert U0 U1 K2 HU1. intros U0 U1 _ _. match goal with |- @eq _ ?x ?y => change (@eq R x y) end. ring.
Qed.
