(** Proofs about the orthonormalisation of src/petigapcbddc.c. *)
From Coq Require Import ZArith List Bool Reals Lia Lra.
From Verif Require Import Prelude AxisInitModel AxisInitProofs GridSpec GridProofs GsModel GsSpec.
Import ListNotations.
Open Scope Z_scope.

Lemma fold_rsum : forall A (f : A -> R) l s, fold_left (fun s t => s + f t)%R l s = (s + rsum f l)%R.
Proof.
  intros A f l. induction l as [|a l IH]; intros s.
  - unfold rsum. cbn. ring.
  - cbn [fold_left]. rewrite IH, rsum_cons. ring.
Qed.

Section Gs.
  Variable N : Z.
  Notation inner := (inner N).
  Notation same := (same N).
  Notation null := (null N).
  Notation in_span := (in_span N).

  Lemma VecDot_inner : forall x y, VecDot N x y = inner x y.
  Proof. intros. unfold VecDot, GsSpec.inner. rewrite fold_rsum. ring. Qed.

  Lemma VecMDot_eq : forall x n y val j, 0 <= n -> VecMDot N x n y val j = if (0 <=? j) && (j <? n) then inner x (y j) else val j.
  Proof.
    intros x n y val j Hn. unfold VecMDot. pattern n. apply natlike_ind; [| |exact Hn].
    - rewrite zseq_nil by lia. cbn. destruct (Z.leb_spec 0 j), (Z.ltb_spec j 0); auto; lia.
    - intros k Hk IH. unfold Z.succ. rewrite zseq_snoc, fold_left_app by lia. cbn [fold_left].
      rewrite Z.add_0_l. destruct (Z.eq_dec j k) as [->|E].
      + rewrite upd_same, VecDot_inner. destruct (Z.leb_spec 0 k), (Z.ltb_spec k (k+1)); auto; lia.
      + rewrite upd_other by auto. rewrite IH.
        destruct (Z.leb_spec 0 j), (Z.ltb_spec j k), (Z.ltb_spec j (k+1)); auto; lia.
  Qed.

  Lemma negate_eq : forall n a j, 0 <= n -> negate n a j = if (0 <=? j) && (j <? n) then (- a j)%R else a j.
  Proof.
    intros n a j Hn. unfold negate. pattern n. apply natlike_ind; [| |exact Hn].
    - rewrite zseq_nil by lia. cbn. destruct (Z.leb_spec 0 j), (Z.ltb_spec j 0); auto; lia.
    - intros k Hk IH. unfold Z.succ. rewrite zseq_snoc, fold_left_app by lia. cbn [fold_left].
      rewrite Z.add_0_l. destruct (Z.eq_dec j k) as [->|E].
      + rewrite upd_same, IH. destruct (Z.leb_spec 0 k), (Z.ltb_spec k (k+1)), (Z.ltb_spec k k); cbn [andb]; try lia; ring.
      + rewrite upd_other by auto. rewrite IH.
        destruct (Z.leb_spec 0 j), (Z.ltb_spec j k), (Z.ltb_spec j (k+1)); auto; lia.
  Qed.

  (** ** The inner product *)
  Lemma inner_ext : forall x x' y y', same x x' -> same y y' -> inner x y = inner x' y'.
  Proof.
    intros. unfold GsSpec.inner. apply rsum_ext. intros t Ht. apply in_zseq in Ht. rewrite H, H0 by lia. reflexivity.
  Qed.
  Lemma inner_sym : forall x y, inner x y = inner y x.
  Proof. intros. unfold GsSpec.inner. apply rsum_ext. intros. ring. Qed.
  Lemma inner_plus : forall x y z, inner (fun t => x t + y t)%R z = (inner x z + inner y z)%R.
  Proof. intros. unfold GsSpec.inner. rewrite <- rsum_plus. apply rsum_ext. intros. ring. Qed.
  Lemma inner_scal : forall c x z, inner (fun t => c * x t)%R z = (c * inner x z)%R.
  Proof. intros. unfold GsSpec.inner. rewrite <- rsum_scal. apply rsum_ext. intros. ring. Qed.
  Lemma inner_sum : forall (c : Z -> R) (w : Z -> Z -> R) l z,
    inner (fun t => rsum (fun j => c j * w j t)%R l) z = rsum (fun j => c j * inner (w j) z)%R l.
  Proof.
    intros c w l z. induction l as [|a l IH].
    - unfold GsSpec.inner. rewrite rsum_zero; [reflexivity|]. intros t _. unfold rsum. cbn. ring.
    - rewrite rsum_cons, <- IH, <- inner_scal, <- inner_plus. apply inner_ext; intros t Ht; [|reflexivity].
      rewrite rsum_cons. ring.
  Qed.
  Lemma rsum_nonneg : forall A (f : A -> R) l, (forall x, In x l -> 0 <= f x)%R -> (0 <= rsum f l)%R.
  Proof.
    intros A f l. induction l as [|a l IH]; intros H; [unfold rsum; cbn; lra|]. rewrite rsum_cons.
    pose proof (H a (or_introl eq_refl)). pose proof (IH (fun x Hx => H x (or_intror Hx))). lra.
  Qed.
  Lemma rsum_zero_inv : forall A (f : A -> R) l, (forall x, In x l -> 0 <= f x)%R -> rsum f l = 0%R ->
    forall x, In x l -> f x = 0%R.
  Proof.
    intros A f l. induction l as [|a l IH]; intros H E x Hx; [destruct Hx|]. rewrite rsum_cons in E.
    pose proof (H a (or_introl eq_refl)). pose proof (rsum_nonneg _ f l (fun x Hx => H x (or_intror Hx))).
    destruct Hx as [->|Hx]; [lra|]. apply IH; auto. { intros; apply H; right; auto. } lra.
  Qed.
  Lemma inner_nonneg : forall x, (0 <= inner x x)%R.
  Proof. intros. apply rsum_nonneg. intros t _. nra. Qed.
  Lemma inner_zero : forall x, inner x x = 0%R -> null x.
  Proof.
    intros x E t Ht. assert (x t * x t = 0)%R.
    { apply (rsum_zero_inv _ (fun t => x t * x t)%R (zseq 0 N)); [intros s _; nra|exact E|]. apply in_zseq. lia. }
    nra.
  Qed.
  Lemma null_inner : forall x y, null x -> inner x y = 0%R.
  Proof. intros x y H. unfold GsSpec.inner. apply rsum_zero. intros t Ht. apply in_zseq in Ht. rewrite H by lia. ring. Qed.
  Lemma sqrt_zero : forall x, sqrt (inner x x) = 0%R <-> null x.
  Proof.
    intros x. split; intros H.
    - apply inner_zero. apply sqrt_eq_0; auto. apply inner_nonneg.
    - rewrite null_inner by auto. apply sqrt_0.
  Qed.

  (** ** Spans *)
  Lemma in_span_ext : forall k w x y, same x y -> in_span k w x -> in_span k w y.
  Proof. intros k w x y E [c H]. exists c. intros t Ht. rewrite <- E by auto. apply H; auto. Qed.
  Lemma in_span_plus : forall k w x y, in_span k w x -> in_span k w y -> in_span k w (fun t => x t + y t)%R.
  Proof.
    intros k w x y [c H] [d H']. exists (fun j => c j + d j)%R. intros t Ht. rewrite H, H', <- rsum_plus by auto.
    apply rsum_ext. intros. ring.
  Qed.
  Lemma in_span_scal : forall k w a x, in_span k w x -> in_span k w (fun t => a * x t)%R.
  Proof.
    intros k w a x [c H]. exists (fun j => a * c j)%R. intros t Ht. rewrite H, <- rsum_scal by auto.
    apply rsum_ext. intros. ring.
  Qed.
  Lemma in_span_zero : forall k w, in_span k w (fun _ => 0%R).
  Proof. intros. exists (fun _ => 0%R). intros t Ht. rewrite rsum_zero; auto. intros. ring. Qed.
  Lemma in_span_sum : forall k w c (u : Z -> Z -> R) l, (forall j, In j l -> in_span k w (u j)) ->
    in_span k w (fun t => rsum (fun j => c j * u j t)%R l).
  Proof.
    intros k w c u l. induction l as [|a l IH]; intros H.
    - apply (in_span_zero k w).
    - apply in_span_ext with (x := fun t => (c a * u a t + rsum (fun j => c j * u j t) l)%R).
      { intros t _. rewrite rsum_cons. reflexivity. }
      apply in_span_plus; [apply in_span_scal, H; left; auto|]. apply IH. intros; apply H; right; auto.
  Qed.
  Lemma in_span_self : forall k w i, 0 <= i < k -> in_span k w (w i).
  Proof.
    intros k w i Hi. exists (fun j => if j =? i then 1%R else 0%R). intros t Ht.
    rewrite (rsum_single _ _ _ i).
    - rewrite Z.eqb_refl. ring.
    - apply NoDup_zseq.
    - apply in_zseq. lia.
    - intros j _ E. destruct (Z.eqb_spec j i); [congruence|ring].
  Qed.
  Lemma in_span_trans : forall k m w u x, (forall j, 0 <= j < m -> in_span k w (u j)) -> in_span m u x -> in_span k w x.
  Proof.
    intros k m w u x H [c E]. apply in_span_ext with (x := fun t => rsum (fun j => c j * u j t)%R (zseq 0 m)).
    { intros t Ht. symmetry. apply E; auto. }
    apply in_span_sum. intros j Hj. apply in_zseq in Hj. apply H. lia.
  Qed.
  Lemma in_span_mono : forall k m w x, 0 <= k <= m -> in_span k w x -> in_span m w x.
  Proof. intros k m w x H. apply in_span_trans. intros j Hj. apply in_span_self. lia. Qed.
  Lemma in_span_same : forall k w w' x, (forall j, 0 <= j < k -> same (w j) (w' j)) -> in_span k w x -> in_span k w' x.
  Proof.
    intros k w w' x H. apply in_span_trans. intros j Hj. apply in_span_ext with (x := w' j).
    { intros t Ht. symmetry. apply H; auto. }
    apply in_span_self; auto.
  Qed.

  (** ** One turn of the loop *)
  Definition residual (u : Z -> Z -> R) (i : Z) (x : Z -> R) : Z -> R :=
    fun t => (x t + rsum (fun j => - inner x (u j) * u j t) (zseq 0 i))%R.

  Lemma gs_step_eq : forall vs al i, 0 <= i -> exists f, (forall t, f t = residual vs i (vs i) t) /\
      forall j, fst (gs_step N (vs, al) i) j = if j =? i then VecNormalize N f else vs j.
  Proof.
    intros vs al i Hi. eexists. split; [|].
    2:{ intros j. cbn [gs_step fst]. rewrite upd_same. unfold upd at 1. destruct (j =? i) eqn:E; [reflexivity|].
        unfold upd. rewrite E. reflexivity. }
    intros t. unfold VecMAXPY, residual. rewrite fold_rsum. f_equal. apply rsum_ext. intros j Hj. apply in_zseq in Hj.
    rewrite negate_eq, VecMDot_eq by lia.
    destruct (Z.leb_spec 0 j), (Z.ltb_spec j i); try lia. reflexivity.
  Qed.

  Lemma VecNormalize_spec : forall f, exists a b, (a * b = 1)%R /\ same (VecNormalize N f) (fun t => a * f t)%R /\
    same f (fun t => b * VecNormalize N f t)%R /\
    (inner (VecNormalize N f) (VecNormalize N f) = 1%R /\ ~ null f \/ null f /\ null (VecNormalize N f)).
  Proof.
    intros f. unfold VecNormalize. rewrite VecDot_inner. destruct (Req_EM_T (sqrt (inner f f)) 0) as [E|E].
    - exists 1%R, 1%R. repeat split; try (intros t _; ring); try ring. right. apply sqrt_zero in E. auto.
    - exists (1 / sqrt (inner f f))%R, (sqrt (inner f f)). repeat split; try (intros t _; field; auto); try (field; auto).
      left. split.
      + rewrite inner_scal, (inner_sym f (fun t => (1 / sqrt (inner f f) * f t)%R)), inner_scal. assert (Q : (sqrt (inner f f) * sqrt (inner f f) = inner f f)%R) by apply sqrt_sqrt, inner_nonneg.
        revert Q E. generalize (sqrt (inner f f)). intros q Q E. rewrite <- Q. field. auto.
      + rewrite <- sqrt_zero. auto.
  Qed.

  Record inv (v : Z -> Z -> R) (k : Z) (u : Z -> Z -> R) : Prop := {
    inv_rest : forall j, k <= j \/ j < 0 -> u j = v j;
    inv_orth : forall i j, 0 <= i < k -> 0 <= j < k -> i <> j -> inner (u i) (u j) = 0%R;
    inv_unit : forall i, 0 <= i < k ->
      inner (u i) (u i) = 1%R /\ ~ in_span i v (v i) \/ null (u i) /\ in_span i v (v i);
    inv_to : forall i, 0 <= i < k -> in_span (i + 1) v (u i);
    inv_from : forall i, 0 <= i < k -> in_span (i + 1) u (v i) }.

  Lemma residual_orth : forall u k x i, (forall i j, 0 <= i < k -> 0 <= j < k -> i <> j -> inner (u i) (u j) = 0%R) ->
    (forall i, 0 <= i < k -> inner (u i) (u i) = 1%R \/ null (u i)) -> 0 <= i < k -> inner (residual u k x) (u i) = 0%R.
  Proof.
    intros u k x i Ho Hu Hi. unfold residual.
    rewrite inner_plus, inner_sum, (rsum_single _ _ _ i).
    - destruct (Hu i Hi) as [E|E]; [rewrite E; ring|].
      rewrite (inner_sym x), !null_inner by auto. ring.
    - apply NoDup_zseq.
    - apply in_zseq. lia.
    - intros j Hj E. apply in_zseq in Hj. rewrite Ho by lia. ring.
  Qed.

  Lemma orth_span : forall k u x y, in_span k u x -> (forall j, 0 <= j < k -> inner y (u j) = 0%R) -> inner x y = 0%R.
  Proof.
    intros k u x y [c E] H. rewrite (inner_ext x _ y y E) by (intros t _; reflexivity). rewrite inner_sum.
    apply rsum_zero. intros j Hj. apply in_zseq in Hj. rewrite inner_sym, H by lia. ring.
  Qed.

  Lemma inv_step : forall v k u al, 0 <= k -> inv v k u -> inv v (k + 1) (fst (gs_step N (u, al) k)).
  Proof.
    intros v k u al Hk [Hr Ho Hu Ht Hf].
    destruct (gs_step_eq u al k Hk) as [f [Ef E]]. revert E. generalize (fst (gs_step N (u, al) k)). intros w E.
    assert (Ek : w k = VecNormalize N f) by (rewrite E, Z.eqb_refl; reflexivity).
    assert (Eo : forall j, j <> k -> w j = u j) by (intros j Hj; rewrite E; destruct (Z.eqb_spec j k); congruence).
    assert (Evk : u k = v k) by (apply Hr; lia).
    destruct (VecNormalize_spec f) as (a & b & Hab & Ha & Hb & Hn). rewrite <- Ek in Ha, Hb, Hn.
    assert (Horth : forall i, 0 <= i < k -> inner (w k) (u i) = 0%R).
    { intros i Hi. rewrite (inner_ext (w k) _ (u i) (u i) Ha) by (intros t _; reflexivity). rewrite inner_scal.
      rewrite (inner_ext f (residual u k (u k)) (u i) (u i)); try (intros t _; auto).
      rewrite residual_orth; auto; try ring. intros j Hj. destruct (Hu j Hj) as [[X _]|[X _]]; auto. }
    assert (Huv : forall x, in_span k u x -> in_span k v x).
    { intros x. apply in_span_trans. intros j Hj. apply in_span_mono with (k := j + 1); [lia|]. apply Ht; auto. }
    assert (Hvu : forall x, in_span k v x -> in_span k u x).
    { intros x. apply in_span_trans. intros j Hj. apply in_span_mono with (k := j + 1); [lia|]. apply Hf; auto. }
    assert (Hsum : in_span k u (fun t => rsum (fun j => - inner (v k) (u j) * u j t)%R (zseq 0 k))).
    { exists (fun j => - inner (v k) (u j))%R. intros t _. reflexivity. }
    assert (Hres : forall t, f t = (v k t + rsum (fun j => - inner (v k) (u j) * u j t) (zseq 0 k))%R).
    { intros t. rewrite Ef, Evk. reflexivity. }
    constructor.
    - intros j Hj. rewrite Eo by lia. apply Hr. lia.
    - intros i j Hi Hj Hij. destruct (Z.eq_dec i k) as [->|Ei]; [|destruct (Z.eq_dec j k) as [->|Ej]].
      + rewrite (Eo j) by lia. apply Horth. lia.
      + rewrite (Eo i), inner_sym by lia. apply Horth. lia.
      + rewrite !Eo by lia. apply Ho; lia.
    - intros i Hi. destruct (Z.eq_dec i k) as [->|Ei]; [|rewrite Eo by lia; apply Hu; lia].
      destruct Hn as [[Hn Hf0]|[Hf0 Hn]].
      + left. split; auto. intros Hs. apply Hf0. apply inner_zero.
        apply orth_span with (k := k) (u := u).
        * apply in_span_ext with (x := fun t => (v k t + rsum (fun j => - inner (v k) (u j) * u j t) (zseq 0 k))%R).
          { intros t _. symmetry. apply Hres. }
          apply in_span_plus; auto.
        * intros j Hj. rewrite (inner_ext f (residual u k (u k)) (u j) (u j)); try (intros t _; auto).
          apply residual_orth; auto. intros l Hl. destruct (Hu l Hl) as [[X _]|[X _]]; auto.
      + right. split; auto. apply Huv.
        apply in_span_ext with (x := fun t => (-1 * rsum (fun j => - inner (v k) (u j) * u j t) (zseq 0 k))%R).
        { intros t Htt. pose proof (Hres t). rewrite (Hf0 t Htt) in H. lra. }
        apply in_span_scal. auto.
    - intros i Hi. destruct (Z.eq_dec i k) as [->|Ei]; [|rewrite Eo by lia; apply Ht; lia].
      apply in_span_ext with (x := fun t => (a * (v k t + rsum (fun j => - inner (v k) (u j) * u j t) (zseq 0 k)))%R).
      { intros t Htt. rewrite Ha, Hres by auto. reflexivity. }
      apply in_span_scal, in_span_plus; [apply in_span_self; lia|].
      apply in_span_mono with (k := k); [lia|]. auto.
    - intros i Hi. destruct (Z.eq_dec i k) as [->|Ei].
      + apply in_span_ext with (x := fun t => (b * w k t + -1 * rsum (fun j => - inner (v k) (u j) * u j t) (zseq 0 k))%R).
        { intros t Htt. pose proof (Hres t). rewrite (Hb t Htt) in H. lra. }
        apply in_span_plus; [apply in_span_scal, in_span_self; lia|]. apply in_span_scal.
        apply in_span_mono with (k := k); [lia|]. apply in_span_same with (w := u); auto.
        intros j Hj t _. rewrite Eo by lia. reflexivity.
      + apply in_span_same with (w := u); [|apply Hf; lia]. intros j Hj t _. rewrite Eo by lia. reflexivity.
  Qed.

  Lemma gs_inv : forall v al n, 0 <= n -> inv v n (OrthonormalizeVecs_Private N al n v).
  Proof.
    intros v al n Hn. unfold OrthonormalizeVecs_Private. pattern n. apply natlike_ind; [| |exact Hn].
    - rewrite zseq_nil by lia. cbn [fold_left fst]. constructor; intros; try lia. reflexivity.
    - intros k Hk IH. unfold Z.succ. rewrite zseq_snoc, fold_left_app by lia. cbn [fold_left]. rewrite Z.add_0_l.
      revert IH. match goal with |- context [gs_step N ?p k] => destruct p as [u al'] end. intros IH. apply inv_step; auto.
  Qed.

  Lemma inv_span : forall v n u, 0 <= n -> inv v n u -> same_span N n n u v.
  Proof.
    intros v n u Hn [_ _ _ Ht Hf] x. split; apply in_span_trans; intros j Hj; apply in_span_mono with (k := j + 1); auto; lia.
  Qed.

  (** ** The vectors that are made orthonormal *)
  Lemma near_mid : forall mask s (nnsp : Z -> Z -> R) size v0 j, 0 <= size ->
    fold_left (fun v i => upd v (i + s) (fun t => (nnsp i t * mask t)%R)) (zseq 0 size) v0 j =
    if (s <=? j) && (j <? s + size) then (fun t => (nnsp (j - s)%Z t * mask t)%R) else v0 j.
  Proof.
    intros mask s nnsp size v0 j Hs. pattern size. apply natlike_ind; [| |exact Hs].
    - rewrite zseq_nil by lia. cbn [fold_left]. destruct (Z.leb_spec s j), (Z.ltb_spec j (s + 0)); auto; lia.
    - intros k Hk IH. unfold Z.succ. rewrite zseq_snoc, fold_left_app by lia. cbn [fold_left]. rewrite Z.add_0_l.
      destruct (Z.eq_dec j (k + s)) as [->|E].
      + rewrite upd_same. replace (k + s - s) with k by lia.
        destruct (Z.leb_spec s (k + s)), (Z.ltb_spec (k + s) (s + (k + 1))); try lia. reflexivity.
      + rewrite upd_other by auto. rewrite IH.
        destruct (Z.leb_spec s j), (Z.ltb_spec j (s + k)), (Z.ltb_spec j (s + (k + 1))); auto; lia.
  Qed.

  Definition vol_step (s size : Z) (nnsp : Z -> Z -> R) (vol : Z -> Z) (st : status * (Z -> Z -> R)) (i : Z) :=
    match st with
    | (Ok, v) => if (vol i <? 0) || (vol i >=? size) then (ErrArg, v) else (Ok, upd v (i + s + size) (nnsp (vol i)))
    | e => e
    end.
  Lemma near_vol : forall s size nnsp vol v0 nv, 0 <= nv -> (forall i, 0 <= i < nv -> 0 <= vol i < size) ->
    exists v, fold_left (vol_step s size nnsp vol) (zseq 0 nv) (Ok, v0) = (Ok, v) /\
      forall j, v j = if (s + size <=? j) && (j <? s + size + nv) then nnsp (vol (j - s - size)) else v0 j.
  Proof.
    intros s size nnsp vol v0 nv Hn. pattern nv. apply natlike_ind; [| |exact Hn].
    - intros _. exists v0. rewrite zseq_nil by lia. split; [reflexivity|]. intros j.
      destruct (Z.leb_spec (s + size) j), (Z.ltb_spec j (s + size + 0)); auto; lia.
    - intros k Hk IH H. destruct IH as [v [E Hv]]; [intros; apply H; lia|].
      unfold Z.succ. rewrite zseq_snoc, fold_left_app, E by lia. cbn [fold_left vol_step]. rewrite Z.add_0_l.
      pose proof (H k ltac:(lia)) as Hvk.
      destruct (Z.ltb_spec (vol k) 0); [lia|]. rewrite Z.geb_leb. destruct (Z.leb_spec size (vol k)); [lia|]. cbn [orb].
      eexists. split; [reflexivity|]. intros j. destruct (Z.eq_dec j (k + s + size)) as [->|Ej].
      + rewrite upd_same. replace (k + s + size - s - size) with k by lia.
        destruct (Z.leb_spec (s + size) (k + s + size)), (Z.ltb_spec (k + s + size) (s + size + (k + 1))); try lia. reflexivity.
      + rewrite upd_other, Hv by auto.
        destruct (Z.leb_spec (s + size) j), (Z.ltb_spec j (s + size + k)), (Z.ltb_spec j (s + size + (k + 1))); auto; lia.
  Qed.
  Lemma vol_err : forall s size nnsp vol l e v, e <> Ok -> fold_left (vol_step s size nnsp vol) l (e, v) = (e, v).
  Proof. intros s size nnsp vol l. induction l; intros e v H; cbn [fold_left vol_step]; auto. destruct e; try congruence; apply IHl; auto. Qed.
  Lemma near_bad : forall s size nnsp vol v0 nv i, 0 <= i < nv -> ~ 0 <= vol i < size ->
    fst (fold_left (vol_step s size nnsp vol) (zseq 0 nv) (Ok, v0)) = ErrArg.
  Proof.
    intros s size nnsp vol v0 nv i Hi Hb. assert (Hn : 0 <= nv) by lia. revert i Hi Hb. pattern nv.
    apply natlike_ind; [| |exact Hn]; [intros; lia|]. intros k Hk IH i Hi Hb.
    unfold Z.succ in *. rewrite zseq_snoc, fold_left_app by lia. cbn [fold_left]. rewrite Z.add_0_l.
    destruct (fold_left (vol_step s size nnsp vol) (zseq 0 k) (Ok, v0)) as [e v] eqn:E.
    destruct (Z.eq_dec i k) as [->|Ei].
    - destruct e; cbn [vol_step fst]; try reflexivity.
      2-5: exfalso; clear -E; revert E; generalize (zseq 0 k) v0; intros l; induction l as [|a l IHl]; intros v1 E; cbn [fold_left vol_step] in E; [discriminate|];
         destruct ((vol a <? 0) || (vol a >=? size)); [rewrite vol_err in E by discriminate; discriminate|eapply IHl; eauto].
      all: destruct ((vol k <? 0) || (vol k >=? size)) eqn:X; auto.
      all: exfalso; apply orb_false_elim in X; destruct X as [X1 X2]; apply Z.ltb_ge in X1; rewrite Z.geb_leb in X2;
        apply Z.leb_gt in X2; lia.
    - specialize (IH i ltac:(lia) Hb). cbn [fst] in IH. subst e. reflexivity.
  Qed.
End Gs.
