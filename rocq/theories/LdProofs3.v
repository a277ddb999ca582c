(** IGA_BoundaryArea_2D/3D: the length and area elements of a face. *)
From Coq Require Import ZArith List Bool Lia Reals Lra.
From Coq Require Import ZifyBool ZifyNat.
From Verif Require Import Prelude RealOrd GridModel Box GridSpec GridProofs ElemModel ElemSpec TabProofs3 LdModel LdSpec.
From Verif Require Import Box.
Import ListNotations.
Open Scope Z_scope.

Lemma rsum_flat (f : Z -> R) n m : 0 <= n -> 0 <= m ->
  rsum f (zseq 0 (n * m)) = rsum (fun j => rsum (fun i => f (i + n * j)) (zseq 0 n)) (zseq 0 m).
Proof.
  intros Hn Hm. pattern m. apply natlike_ind; [|clear m Hm; intros m Hm IH|exact Hm].
  - rewrite Z.mul_0_r. reflexivity.
  - unfold Z.succ. replace (n * (m + 1)) with (n * m + n) by lia. rewrite zseq_app by nia. rewrite rsum_app, IH. rewrite (zseq_snoc 0 m) by lia. rewrite rsum_app. f_equal.
    change (rsum ?g [0 + m]) with (g (0 + m)%Z + 0)%R. cbv beta. rewrite Rplus_0_r.
    replace (zseq (0 + n * m) n) with (map (fun x => x + n * m) (zseq 0 n)) by (rewrite zseq_shift; reflexivity).
    unfold rsum. rewrite map_map. reflexivity.
Qed.
Lemma dpl_rsum {A} (f : A -> R -> R) (f' : A -> R) l u : (forall a, In a l -> derivable_pt_lim (f a) u (f' a)) ->
  derivable_pt_lim (fun x => rsum (fun a => f a x) l) u (rsum f' l).
Proof.
  induction l as [|a l IH]; intros H.
  - apply derivable_pt_lim_const.
  - apply (derivable_pt_lim_plus (f a) (fun x => rsum (fun a => f a x) l)); [apply H; left; reflexivity|apply IH; intros; apply H; right; assumption].
Qed.
Lemma dpl_val f u a b : a = b -> derivable_pt_lim f u a -> derivable_pt_lim f u b.
Proof. intros ->. auto. Qed.

(** Quotient of two combinations of the same functions. *)
Lemma quotient_rule (l : list Z) (B : Z -> R -> R) (B0 B1 w x : Z -> R) u :
  (forall b, In b l -> derivable_pt_lim (B b) u (B1 b)) -> (forall b, In b l -> B b u = B0 b) -> rsum (fun b => w b * B0 b)%R l <> 0%R ->
  derivable_pt_lim (fun v => rsum (fun b => w b * x b * B b v) l / rsum (fun b => w b * B b v) l)%R u
    (rsum (fun b => (w b * B1 b - w b * B0 b / rsum (fun b => w b * B0 b) l * rsum (fun b => w b * B1 b) l) / rsum (fun b => w b * B0 b) l * x b) l)%R.
Proof.
  intros HB H0 HS. set (S := rsum (fun b => w b * B0 b)%R l) in *. set (S' := rsum (fun b => w b * B1 b)%R l).
  assert (ES : rsum (fun b => w b * B b u)%R l = S) by (apply rsum_ext; intros b Hb; rewrite H0 by exact Hb; reflexivity).
  assert (EX : rsum (fun b => w b * x b * B b u)%R l = rsum (fun b => w b * x b * B0 b)%R l) by (apply rsum_ext; intros b Hb; rewrite H0 by exact Hb; reflexivity).
  pose proof (derivable_pt_lim_div (fun v => rsum (fun b => w b * x b * B b v)%R l) (fun v => rsum (fun b => w b * B b v)%R l) u
    (rsum (fun b => w b * x b * B1 b)%R l) S') as D.
  refine (dpl_val _ _ _ _ _ (D _ _ _)).
  - rewrite ES, EX.
    rewrite (rsum_ext _ (fun b => (w b * B1 b - w b * B0 b / S * S') / S * x b)%R (fun b => / S * (w b * x b * B1 b) + (- (S' / (S * S))) * (w b * x b * B0 b))%R)
      by (intros b _; field; exact HS).
    rewrite rsum_plus, !rsum_scal. unfold Rsqr. field. exact HS.
  - apply dpl_rsum. intros b Hb. refine (dpl_val _ _ _ _ _ (derivable_pt_lim_scal (B b) (w b * x b)%R u (B1 b) (HB b Hb))). reflexivity.
  - apply dpl_rsum. intros b Hb. refine (dpl_val _ _ _ _ _ (derivable_pt_lim_scal (B b) (w b) u (B1 b) (HB b Hb))). reflexivity.
  - rewrite ES. exact HS.
Qed.
Lemma sum_rule (l : list Z) (B : Z -> R -> R) (B1 x : Z -> R) u : (forall b, In b l -> derivable_pt_lim (B b) u (B1 b)) ->
  derivable_pt_lim (fun v => rsum (fun b => x b * B b v) l)%R u (rsum (fun b => B1 b * x b)%R l).
Proof.
  intros HB. apply dpl_rsum. intros b Hb. refine (dpl_val _ _ _ _ _ (derivable_pt_lim_scal (B b) (x b) u (B1 b) (HB b Hb))). ring.
Qed.


(** The derivative the Fortran code forms is the derivative of the point. *)
Definition fder (nen : Z) (w : option (Z -> R)) (N0 : Z -> R) (N1 : Z -> Z -> R) (al b : Z) : R :=
  match w with Some W => rational_der nen W N0 N1 al b | None => N1 al b end.
Definition fpoint (nen : Z) (w : option (Z -> R)) (x B : Z -> R) : R := curve_point nen w x B.
Lemma fder_derives nen w x N0 N1 al (B : Z -> R -> R) u :
  (forall b, 0 <= b < nen -> derivable_pt_lim (B b) u (N1 al b) /\ B b u = N0 b) ->
  match w with Some W => rsum (fun b => W b * N0 b)%R (zseq 0 nen) <> 0%R | None => True end ->
  derivable_pt_lim (fun v => curve_point nen w x (fun b => B b v)) u (rsum (fun b => fder nen w N0 N1 al b * x b)%R (zseq 0 nen)).
Proof.
  intros HB HW. unfold curve_point, fder. destruct w as [W|].
  - apply quotient_rule; [intros b Hb; apply in_zseq in Hb; apply HB; lia..|exact HW].
  - apply sum_rule. intros b Hb. apply in_zseq in Hb. apply HB. lia.
Qed.

Lemma length_jac nen R1 X : face_jacobian 1 2 nen R1 X = length2 (fun i => rsum (fun b => R1 0%Z b * X i b)%R (zseq 0 nen)).
Proof.
  unfold face_jacobian, length2. zc. change (zseq 0 2) with [0; 1]. unfold rsum at 1. cbn [map fold_right]. rewrite Rplus_0_r.
  rewrite Rabs_right; [reflexivity|]. apply Rle_ge. apply Rplus_le_le_0_compat; apply Rle_0_sqr.
Qed.
Lemma cross_jac nen R1 X : face_jacobian 2 3 nen R1 X =
  cross_length (fun i => rsum (fun b => R1 0%Z b * X i b)%R (zseq 0 nen)) (fun i => rsum (fun b => R1 1%Z b * X i b)%R (zseq 0 nen)).
Proof.
  unfold face_jacobian, cross_length. zc. change (zseq 0 3) with [0; 1; 2].
  assert (G : forall a b : Z -> R, rsum (fun i => a i * b i)%R [0; 1; 2] = (a 0%Z * b 0%Z + a 1%Z * b 1%Z + a 2%Z * b 2%Z)%R) by (intros; unfold rsum; cbn [map fold_right]; ring).
  cbv zeta. rewrite !G. cbv beta.
  match goal with |- sqrt (Rabs ?a) = sqrt ?b => replace a with b by ring end.
  rewrite Rabs_right; [reflexivity|]. apply Rle_ge. apply Rplus_le_le_0_compat; [apply Rplus_le_le_0_compat|]; apply Rle_0_sqr.
Qed.

Theorem edge_length m axis side (X : Z -> Z -> Z -> R) (w : option (Z -> Z -> R)) Cx Cw nqp W nen (N : Z -> Z -> Z -> R) (B : Z -> R -> R) (u : Z -> R) :
  0 <= axis < 2 -> side = 0 \/ side = 1 -> (forall d, 0 <= d < 2 -> 1 <= m d) -> nen = m (1 - axis) ->
  (forall c i j, 0 <= c < 2 -> 0 <= i < m 0 -> 0 <= j < m 1 -> Cx (c + 2 * (i + m 0 * j)) = X c i j) ->
  match Cw, w with Some C, Some v => forall i j, 0 <= i < m 0 -> 0 <= j < m 1 -> C (i + m 0 * j) = v i j | None, None => True | _, _ => False end ->
  (forall b q, 0 <= b < nen -> 0 <= q < nqp -> derivable_pt_lim (B b) (u q) (N 1 b q) /\ B b (u q) = N 0 b q) ->
  let wf := option_map (fun v b => v (fst (edge_index m axis side b)) (snd (edge_index m axis side b))) w in
  (forall q, 0 <= q < nqp -> match wf with Some v => rsum (fun b => v b * N 0%Z b q)%R (zseq 0 nen) <> 0%R | None => True end) ->
  exists t, (forall q c, 0 <= q < nqp -> 0 <= c < 2 ->
      derivable_pt_lim (fun v => curve_point nen wf (fun b => X c (fst (edge_index m axis side b)) (snd (edge_index m axis side b))) (fun b => B b v)) (u q) (t q c)) /\
    area_2d m axis side Cx Cw nqp W nen N = rsum (fun q => length2 (t q) * W q)%R (zseq 0 nqp).
Proof.
  intros Hax Hside Hm Hnen HX HC HB wf HW.
  set (xf := fun c b => X c (fst (edge_index m axis side b)) (snd (edge_index m axis side b))).
  exists (fun q c => rsum (fun b => fder nen wf (fun b => N 0%Z b q) (fun _ b => N 1%Z b q) 0%Z b * xf c b)%R (zseq 0 nen)). split.
  - intros q c Hq Hc. apply fder_derives; [intros b Hb; apply HB; lia|apply HW; exact Hq].
  - assert (FP : forall b, 0 <= b < nen -> exists i j, edge_index m axis side b = (i, j) /\ 0 <= i < m 0 /\ 0 <= j < m 1 /\ face_point 2 m axis side b = i + m 0 * j).
    { intros b Hb. pose proof (Hm 0 ltac:(lia)). pose proof (Hm 1 ltac:(lia)). unfold edge_index, face_point. zc.
      assert (D : axis = 0 \/ axis = 1) by lia. destruct D as [-> | ->]; zc; change (1 - 0) with 1 in *; change (1 - 1) with 0 in *;
        (eexists; eexists; split; [reflexivity|]); destruct Hside as [-> | ->]; zc; split; try split; try lia; subst nen; try lia; nia. }
    unfold area_2d. apply rsum_ext. intros q Hq. apply in_zseq in Hq. f_equal. rewrite length_jac. unfold length2.
    assert (E : forall c, 0 <= c < 2 -> rsum (fun b => rat m axis side Cw nen 2%Z (fun b => N 0%Z b q) (fun _ b => N 1%Z b q) 0%Z b * Cx (c + 2 * face_point 2 m axis side b)%Z)%R (zseq 0 nen) =
       rsum (fun b => fder nen wf (fun b => N 0%Z b q) (fun _ b => N 1%Z b q) 0%Z b * xf c b)%R (zseq 0 nen)).
    { intros c Hc. apply rsum_ext. intros b Hb. apply in_zseq in Hb. destruct (FP b ltac:(lia)) as (i & j & E1 & Hi & Hj & E2).
      f_equal; [|rewrite E2, HX by lia; unfold xf; rewrite E1; reflexivity].
      unfold rat, fder, wf. destruct Cw as [C|], w as [v|]; try contradiction; cbn [option_map]; [|reflexivity].
      assert (EW : forall b, 0 <= b < nen -> C (face_point 2 m axis side b) = v (fst (edge_index m axis side b)) (snd (edge_index m axis side b))).
      { intros b' Hb'. destruct (FP b' Hb') as (i' & j' & E1' & Hi' & Hj' & E2'). rewrite E2', HC, E1' by lia. reflexivity. }
      unfold rational_der. rewrite EW by lia.
      rewrite !(rsum_ext _ (fun b => C (face_point 2 m axis side b) * _)%R (fun b => v (fst (edge_index m axis side b)) (snd (edge_index m axis side b)) * _)%R) by (intros b' Hb'; apply in_zseq in Hb'; rewrite EW by lia; reflexivity).
      reflexivity. }
    rewrite (E 0), (E 1) by lia. reflexivity.
Qed.

Lemma dpl_ext2 f g x l : (forall y, f y = g y) -> derivable_pt_lim f x l -> derivable_pt_lim g x l.
Proof. intros E H eps He. destruct (H eps He) as [d Hd]. exists d. intros h Hh Hl. rewrite <- !E. apply Hd; auto. Qed.

Lemma surface_curve n1 n2 w x A B : 1 <= n1 -> 0 <= n2 ->
  surface_point n1 n2 w x A B =
  curve_point (n1 * n2) (option_map (fun v b => v (b mod n1) (b / n1)) w) (fun b => x (b mod n1) (b / n1)) (fun b => A (b mod n1)%Z * B (b / n1)%Z)%R.
Proof.
  intros H1 H2. assert (E : forall f : Z -> Z -> R, rsum (fun b => f (b mod n1) (b / n1)) (zseq 0 (n1 * n2)) = rsum (fun b => rsum (fun a => f a b) (zseq 0 n1)) (zseq 0 n2)).
  { intros f. rewrite rsum_flat by lia. apply rsum_ext. intros b Hb. apply rsum_ext. intros a Ha. apply in_zseq in Ha.
    replace ((a + n1 * b) mod n1) with a by (rewrite Z.mul_comm, Z_mod_plus_full, Z.mod_small; lia).
    replace ((a + n1 * b) / n1) with b by (rewrite Z.mul_comm, Z_div_plus_full, Z.div_small; lia). reflexivity. }
  unfold surface_point, curve_point. destruct w as [v|]; cbn [option_map].
  - rewrite (E (fun a b => v a b * x a b * (A a * B b))%R), (E (fun a b => v a b * (A a * B b))%R). reflexivity.
  - rewrite (E (fun a b => x a b * (A a * B b))%R). reflexivity.
Qed.

Definition tang (axis : Z) : Z * Z := if axis =? 0 then (1, 2) else if axis =? 1 then (0, 2) else (0, 1).
Theorem face_area m axis side (X : Z -> triple -> R) (w : option (triple -> R)) Cx Cw inqp iW inen (iN : Z -> Z -> Z -> R) jnqp jW jnen (jN : Z -> Z -> Z -> R)
    (A B : Z -> R -> R) (u v : Z -> R) :
  0 <= axis < 3 -> side = 0 \/ side = 1 -> (forall d, 0 <= d < 3 -> 1 <= m d) -> inen = m (fst (tang axis)) -> jnen = m (snd (tang axis)) ->
  (forall c t, 0 <= c < 3 -> in_box zero3 m t -> Cx (c + 3 * (coord t 0 + m 0 * coord t 1 + m 0 * m 1 * coord t 2)) = X c t) ->
  match Cw, w with Some C, Some v => forall t, in_box zero3 m t -> C (coord t 0 + m 0 * coord t 1 + m 0 * m 1 * coord t 2) = v t | None, None => True | _, _ => False end ->
  (forall a q, 0 <= a < inen -> 0 <= q < inqp -> derivable_pt_lim (A a) (u q) (iN 1 a q) /\ A a (u q) = iN 0 a q) ->
  (forall b q, 0 <= b < jnen -> 0 <= q < jnqp -> derivable_pt_lim (B b) (v q) (jN 1 b q) /\ B b (v q) = jN 0 b q) ->
  let wf := option_map (fun w a b => w (surf_index m axis side a b)) w in
  let xf := fun c a b => X c (surf_index m axis side a b) in
  (forall q r : Z, (0 <= q < inqp)%Z -> (0 <= r < jnqp)%Z -> match wf with Some w => rsum (fun b => rsum (fun a => w a b * (iN 0%Z a q * jN 0%Z b r)) (zseq 0 inen)) (zseq 0 jnen) <> 0%R | None => True end)%R ->
  exists s t, (forall q r c, 0 <= q < inqp -> 0 <= r < jnqp -> 0 <= c < 3 ->
      derivable_pt_lim (fun x => surface_point inen jnen wf (xf c) (fun a => A a x) (fun b => B b (v r))) (u q) (s q r c) /\
      derivable_pt_lim (fun y => surface_point inen jnen wf (xf c) (fun a => A a (u q)) (fun b => B b y)) (v r) (t q r c)) /\
    area_3d m axis side Cx Cw inqp iW inen iN jnqp jW jnen jN = rsum (fun r => rsum (fun q => cross_length (s q r) (t q r) * iW q * jW r)%R (zseq 0 inqp)) (zseq 0 jnqp).
Proof.
  intros Hax Hside Hm Hi Hj HX HC HA HB wf xf HW.
  assert (Hin : 1 <= inen) by (subst inen; apply Hm; unfold tang; destruct (axis =? 0), (axis =? 1); cbn; lia).
  assert (Hjn : 1 <= jnen) by (subst jnen; apply Hm; unfold tang; destruct (axis =? 0), (axis =? 1); cbn; lia).
  set (n := inen * jnen). set (wf1 := option_map (fun v b => v (b mod inen) (b / inen)) wf). set (xf1 := fun c b => xf c (b mod inen) (b / inen)).
  assert (Hb : forall b, 0 <= b < n -> 0 <= b mod inen < inen /\ 0 <= b / inen < jnen).
  { intros b Hb. pose proof (Z.mod_pos_bound b inen ltac:(lia)). split; [lia|]. split; [apply Z.div_pos; lia|apply Z.div_lt_upper_bound; unfold n in Hb; lia]. }
  set (N0 := fun q r b => (iN 0%Z (b mod inen)%Z q * jN 0%Z (b / inen)%Z r)%R).
  set (N1 := fun q r al b => if (al =? 0)%Z then (iN 1%Z (b mod inen)%Z q * jN 0%Z (b / inen)%Z r)%R else (iN 0%Z (b mod inen)%Z q * jN 1%Z (b / inen)%Z r)%R).
  set (D := fun al q r c => rsum (fun b => fder n wf1 (N0 q r) (N1 q r) al b * xf1 c b)%R (zseq 0 n)).
  exists (D 0), (D 1). split.
  - intros q r c Hq Hr Hc.
    assert (HW1 : match wf1 with Some W => rsum (fun b => W b * N0 q r b)%R (zseq 0 n) <> 0%R | None => True end).
    { specialize (HW q r Hq Hr). unfold wf1. destruct wf as [w1|]; cbn [option_map]; [|trivial].
      intros H. apply HW. rewrite <- H. unfold n. rewrite rsum_flat by lia. apply rsum_ext. intros b Hb'. apply rsum_ext. intros a Ha. apply in_zseq in Ha. unfold N0.
      replace ((a + inen * b) mod inen) with a by (rewrite Z.mul_comm, Z_mod_plus_full, Z.mod_small; lia).
      replace ((a + inen * b) / inen) with b by (rewrite Z.mul_comm, Z_div_plus_full, Z.div_small; lia). reflexivity. }
    split.
    + apply (dpl_ext2 (fun x => curve_point n wf1 (xf1 c) (fun b => A (b mod inen)%Z x * B (b / inen)%Z (v r))%R)); [intros x; symmetry; apply surface_curve; lia|].
      apply (fder_derives n wf1 (xf1 c) (N0 q r) (N1 q r) 0 (fun b x => A (b mod inen)%Z x * B (b / inen)%Z (v r))%R); [|exact HW1].
      intros b Hb'. destruct (Hb b Hb') as [B1 B2]. destruct (HA _ q B1 Hq) as [D1 E1]. destruct (HB _ r B2 Hr) as [D2 E2]. split; [|rewrite E1, E2; reflexivity].
      unfold N1. zc. rewrite <- E2. refine (dpl_val _ _ _ _ _ (derivable_pt_lim_mult (A (b mod inen)) (fct_cte (B (b / inen) (v r))) (u q) _ 0%R D1 (derivable_pt_lim_const _ _))). unfold fct_cte. ring.
    + apply (dpl_ext2 (fun y => curve_point n wf1 (xf1 c) (fun b => A (b mod inen)%Z (u q) * B (b / inen)%Z y)%R)); [intros x; symmetry; apply surface_curve; lia|].
      apply (fder_derives n wf1 (xf1 c) (N0 q r) (N1 q r) 1 (fun b y => A (b mod inen)%Z (u q) * B (b / inen)%Z y)%R); [|exact HW1].
      intros b Hb'. destruct (Hb b Hb') as [B1 B2]. destruct (HA _ q B1 Hq) as [D1 E1]. destruct (HB _ r B2 Hr) as [D2 E2]. split; [|rewrite E1, E2; reflexivity].
      unfold N1. zc. rewrite <- E1. refine (dpl_val _ _ _ _ _ (derivable_pt_lim_mult (fct_cte (A (b mod inen) (u q))) (B (b / inen)) (v r) 0%R _ (derivable_pt_lim_const _ _) D2)). unfold fct_cte. ring.
  - assert (FP : forall b, 0 <= b < n -> in_box zero3 m (surf_index m axis side (b mod inen) (b / inen)) /\
        let t := surf_index m axis side (b mod inen) (b / inen) in face_point 3 m axis side b = coord t 0 + m 0 * coord t 1 + m 0 * m 1 * coord t 2).
    { intros b Hb'. destruct (Hb b Hb') as [B1 B2]. pose proof (Hm 0 ltac:(lia)). pose proof (Hm 1 ltac:(lia)). pose proof (Hm 2 ltac:(lia)). unfold surf_index, face_point, tang in *. zc.
      assert (Dx : axis = 0 \/ axis = 1 \/ axis = 2) by lia. destruct Dx as [-> | [-> | ->]]; cbv beta iota delta [fst snd Z.eqb Pos.eqb] in Hi, Hj; rewrite Hi, Hj in *; unfold in_box, zero3, coord; zc;
        match goal with |- context [b mod ?x] => set (aa := b mod x) in *; set (cc := b / x) in * end;
        clearbody aa cc; clear - B1 B2 H H0 H1 Hside;
        destruct Hside as [-> | ->]; zc; (split; [repeat split; lia|ring]). }
    unfold area_3d. apply rsum_ext. intros r Hr. apply in_zseq in Hr. apply rsum_ext. intros q Hq. apply in_zseq in Hq. f_equal. f_equal. rewrite cross_jac.
    assert (E : forall al c, 0 <= c < 3 -> rsum (fun b => rat m axis side Cw n 3%Z (N0 q r) (N1 q r) al b * Cx (c + 3 * face_point 3 m axis side b)%Z)%R (zseq 0 n) = D al q r c).
    { intros al c Hc. unfold D. apply rsum_ext. intros b Hb'. apply in_zseq in Hb'. destruct (FP b ltac:(lia)) as [I1 I2]. cbv zeta in I2.
      f_equal; [|rewrite I2, HX by (auto; lia); reflexivity].
      unfold rat, fder, wf1, wf. destruct Cw as [C|], w as [w1|]; try contradiction; cbn [option_map]; [|reflexivity].
      assert (EW : forall b, 0 <= b < n -> C (face_point 3 m axis side b) = w1 (surf_index m axis side (b mod inen) (b / inen))).
      { intros b' Hb2. destruct (FP b' Hb2) as [I3 I4]. cbv zeta in I4. rewrite I4. apply HC. exact I3. }
      unfold rational_der. rewrite EW by lia.
      rewrite !(rsum_ext _ (fun b => C (face_point 3 m axis side b) * _)%R (fun b => w1 (surf_index m axis side (b mod inen)%Z (b / inen)%Z) * _)%R) by (intros b' Hb2; apply in_zseq in Hb2; rewrite EW by lia; reflexivity).
      reflexivity. }
    fold n. change (fun b : Z => (iN 0%Z (b mod inen)%Z q * jN 0%Z (b / inen)%Z r)%R) with (N0 q r).
    change (fun al b : Z => if al =? 0 then (iN 1%Z (b mod inen)%Z q * jN 0%Z (b / inen)%Z r)%R else (iN 0%Z (b mod inen)%Z q * jN 1%Z (b / inen)%Z r)%R) with (N1 q r).
    unfold cross_length. rewrite !E by lia. reflexivity.
Qed.
