(** Lemmas for saving and loading geometry, properties and axes. *)
From Coq Require Import ZArith List Bool Lia Reals Lra Permutation Sorted.
From Coq Require Import ZifyBool ZifyNat.
From Verif Require Import Prelude RealOrd Box AxisModel AxisSpec AxisProofs AxisInitModel AxisInitProofs AxisProofs2 PartModel SetupModel
  SetupProofs SetupProps GridModel GridSpec GridProofs GridProofs2 GridSetup LagProofs2 IOModel IOProofs.
Import ListNotations.
Open Scope Z_scope.

(** * Packing control points and weights *)
Lemma nth_pack : forall nsd n X W d a c, 0 <= nsd -> 0 <= a < n -> 0 <= c <= nsd ->
  nth (Z.to_nat ((nsd+1)*a + c)) (pack nsd n X W) d =
  (let w := match W with Some W => if nonzerob (W a) then W a else 1%R | None => 1%R end in
   if c <? nsd then (X (c + a*nsd)%Z * w)%R else match W with Some W => W a | None => 1%R end).
Proof.
  intros nsd n X W d a c Hd Ha Hc. cbv zeta. unfold pack.
  replace (Z.to_nat ((nsd+1)*a + c)) with ((Z.to_nat a) * Z.to_nat (nsd+1) + Z.to_nat c)%nat by nia.
  rewrite nth_flat_map_const with (da := 0).
  - rewrite nth_zseq by lia. replace (0 + Z.of_nat (Z.to_nat a)) with a by lia.
    destruct (Z.ltb_spec c nsd) as [H|H].
    + rewrite app_nth1 by (rewrite map_length, length_zseq; lia). rewrite nth_map_zseq by lia. reflexivity.
    + assert (c = nsd) as -> by lia. rewrite app_nth2 by (rewrite map_length, length_zseq; lia).
      rewrite map_length, length_zseq, Nat.sub_diag. reflexivity.
  - intros x _. rewrite app_length, map_length, length_zseq. cbn [length]. lia.
  - lia.
  - rewrite length_zseq. lia.
Qed.

Lemma nonzerob_spec : forall x, nonzerob x = true <-> x <> 0%R.
Proof.
  intros x. unfold nonzerob. destruct (Rlt_dec 0 (Rabs x)) as [H|H].
  - split; auto. intros _ ->. rewrite Rabs_R0 in H. lra.
  - split; [discriminate|]. intros Hx. exfalso. apply H, Rabs_pos_lt, Hx.
Qed.

(** Values of node a after the loop. *)
Definition unpacked nsd (Xw : Z -> R) a i : R :=
  let w := Xw ((nsd+1)*a + nsd) in if nonzerob w then (Xw ((nsd+1)*a + i)%Z / w)%R else Xw ((nsd+1)*a + i).

Lemma unpack_node_spec : forall nsd Xw X W a pos, 0 <= nsd -> 0 <= a -> pos = (nsd+1)*a ->
  let '(pos', X', W') := unpack_node nsd Xw (pos, X, W) a in
  pos' = (nsd+1)*(a+1) /\ (forall i, 0 <= i < nsd -> X' (i + a*nsd) = unpacked nsd Xw a i) /\
  (forall k, ~ a*nsd <= k < a*nsd + nsd -> X' k = X k) /\
  W' a = Xw ((nsd+1)*a + nsd) /\ (forall b, b <> a -> W' b = W b).
Proof.
  intros nsd Xw X W a pos Hd Ha ->. unfold unpack_node.
  set (f1 := fun (s : Z * (Z -> R)) i => (fst s + 1, upd (snd s) (i + a*nsd) (Xw (fst s)))).
  assert (I1 : let s := fold_left f1 (zseq 0 nsd) ((nsd+1)*a, X) in
    fst s = (nsd+1)*a + nsd /\ (forall i, 0 <= i < nsd -> snd s (i + a*nsd) = Xw ((nsd+1)*a + i)) /\
    (forall k, ~ a*nsd <= k < a*nsd + nsd -> snd s k = X k)).
  { pose proof (fold_zseq_inv _ f1 (fun j s => fst s = (nsd+1)*a + j /\ (forall i, 0 <= i < j -> snd s (i + a*nsd) = Xw ((nsd+1)*a + i)) /\
      (forall k, ~ a*nsd <= k < a*nsd + j -> snd s k = X k)) 0 nsd ((nsd+1)*a, X)) as K.
    replace (0 + Z.max 0 nsd) with nsd in K by lia. apply K; clear K.
    - cbn [fst snd]. split; [lia|]. split; [lia|auto].
    - intros j [p Y] Hj (P1 & P2 & P3). unfold f1; cbn [fst snd] in *. subst p. split; [lia|]. split.
      + intros i Hi. unfold upd. destruct (Z.eqb_spec (i + a*nsd) (j + a*nsd)) as [E|E].
        * replace i with j by lia. reflexivity.
        * apply P2. lia.
      + intros k Hk. unfold upd. destruct (Z.eqb_spec k (j + a*nsd)) as [E|E]; [lia|]. apply P3. lia. }
  destruct (fold_left f1 (zseq 0 nsd) ((nsd+1)*a, X)) as [p Y]. cbn [fst snd] in I1. destruct I1 as (-> & I2 & I3).
  cbv zeta. assert (EW : upd W a (Xw ((nsd+1)*a + nsd)) a = Xw ((nsd+1)*a + nsd)) by (unfold upd; rewrite Z.eqb_refl; reflexivity).
  rewrite EW.
  assert (EO : forall b, b <> a -> upd W a (Xw ((nsd+1)*a + nsd)) b = W b).
  { intros b Hb. unfold upd. destruct (Z.eqb_spec b a); [contradiction|reflexivity]. }
  unfold unpacked. cbv zeta.
  destruct (nonzerob (Xw ((nsd+1)*a + nsd))) eqn:Ew.
  - set (w := Xw ((nsd+1)*a + nsd)) in *.
    set (f2 := fun (X : Z -> R) i => upd X (i + a*nsd) (X (i + a*nsd)%Z / w)%R).
    assert (I4 : let s := fold_left f2 (zseq 0 nsd) Y in
      (forall i, 0 <= i < nsd -> s (i + a*nsd) = (Y (i + a*nsd)%Z / w)%R) /\
      (forall k, ~ a*nsd <= k < a*nsd + nsd -> s k = Y k)).
    { pose proof (fold_zseq_inv _ f2 (fun j s => (forall i, 0 <= i < j -> s (i + a*nsd) = (Y (i + a*nsd)%Z / w)%R) /\
        (forall k, ~ a*nsd <= k < a*nsd + j -> s k = Y k)) 0 nsd Y) as K.
      replace (0 + Z.max 0 nsd) with nsd in K by lia. apply K; clear K.
      - split; [lia|auto].
      - intros j Z1 Hj (P2 & P3). unfold f2. split.
        + intros i Hi. unfold upd. destruct (Z.eqb_spec (i + a*nsd) (j + a*nsd)) as [E|E].
          * rewrite P3 by lia. rewrite E. reflexivity.
          * apply P2. lia.
        + intros k Hk. unfold upd. destruct (Z.eqb_spec k (j + a*nsd)) as [E|E]; [lia|]. apply P3. lia. }
    destruct I4 as [I4 I5]. split; [lia|]. split.
    + intros i Hi. rewrite I4, I2 by auto. reflexivity.
    + split; [|split; auto]. intros k Hk. rewrite I5, I3 by auto. reflexivity.
  - split; [lia|]. split; [auto|]. split; auto.
Qed.

Lemma unpack_spec : forall nsd n Xw X W, 0 <= nsd ->
  let XW := unpack nsd n Xw X W in
  (forall a i, 0 <= a < n -> 0 <= i < nsd -> fst XW (i + a*nsd) = unpacked nsd Xw a i) /\
  (forall a, 0 <= a < n -> snd XW a = Xw ((nsd+1)*a + nsd)).
Proof.
  intros nsd n Xw X W Hd. cbv zeta. unfold unpack.
  pose proof (fold_zseq_inv _ (unpack_node nsd Xw) (fun b s =>
    fst (fst s) = (nsd+1)*b /\ (forall a i, 0 <= a < b -> 0 <= i < nsd -> snd (fst s) (i + a*nsd) = unpacked nsd Xw a i) /\
    (forall a, 0 <= a < b -> snd s a = Xw ((nsd+1)*a + nsd))) 0 n (0, X, W)) as K.
  cbv beta in K. cbn [fst snd] in K.
  match type of K with ?A -> _ => assert (K0 : A) by (split; [lia|]; split; intros; lia) end. specialize (K K0); clear K0.
  destruct (fold_left (unpack_node nsd Xw) (zseq 0 n) (0, X, W)) as [[p X'] W']. cbn [fst snd] in *.
  assert (KK : forall b x, 0 <= b < 0 + n -> fst (fst x) = (nsd+1)*b /\ (forall a i, 0 <= a < b -> 0 <= i < nsd -> snd (fst x) (i + a*nsd) = unpacked nsd Xw a i) /\
    (forall a, 0 <= a < b -> snd x a = Xw ((nsd+1)*a + nsd)) ->
    fst (fst (unpack_node nsd Xw x b)) = (nsd+1)*(b+1) /\ (forall a i, 0 <= a < b+1 -> 0 <= i < nsd -> snd (fst (unpack_node nsd Xw x b)) (i + a*nsd) = unpacked nsd Xw a i) /\
    (forall a, 0 <= a < b+1 -> snd (unpack_node nsd Xw x b) a = Xw ((nsd+1)*a + nsd))).
  { intros b [[q Y] V] Hb (P1 & P2 & P3). cbn [fst snd] in *.
    pose proof (unpack_node_spec nsd Xw Y V b q Hd ltac:(lia) P1) as Q.
    destruct (unpack_node nsd Xw (q, Y, V) b) as [[q' Y'] V']. cbn [fst snd]. destruct Q as (Q1 & Q2 & Q3 & Q4 & Q5).
    split; [auto|]. split.
    - intros a i Ha Hi. destruct (Z.eq_dec a b) as [->|N]; [auto|]. rewrite Q3 by nia. apply P2; lia.
    - intros a Ha. destruct (Z.eq_dec a b) as [->|N]; [auto|]. rewrite Q5 by auto. apply P3; lia. }
  destruct (K KK) as (_ & K1 & K2). split.
  - intros a i Ha Hi. apply K1; lia.
  - intros a Ha. apply K2; lia.
Qed.

(** * Range of a component *)
Lemma fold_max : forall (V : Z -> R) l m,
  let M := fold_left (fun m b => Rmax m (V b)) l m in
  (m <= M)%R /\ (forall b, In b l -> (V b <= M)%R) /\ (M = m \/ exists b, In b l /\ M = V b).
Proof.
  intros V. induction l as [|b l IH]; intros m; cbn [fold_left].
  - split; [lra|]. split; [intros b []|auto].
  - destruct (IH (Rmax m (V b))) as (I1 & I2 & I3). cbv zeta in *. pose proof (Rmax_l m (V b)). pose proof (Rmax_r m (V b)).
    split; [lra|]. split.
    + intros c [<-|Hc]; [lra|auto].
    + destruct I3 as [I3|(c & Hc & E)].
      * rewrite I3. unfold Rmax. destruct (Rle_dec m (V b)); [right; exists b; cbn; auto|auto].
      * right. exists c. cbn; auto.
Qed.
Lemma fold_min : forall (V : Z -> R) l m,
  let M := fold_left (fun m b => Rmin m (V b)) l m in
  (M <= m)%R /\ (forall b, In b l -> (M <= V b)%R) /\ (M = m \/ exists b, In b l /\ M = V b).
Proof.
  intros V. induction l as [|b l IH]; intros m; cbn [fold_left].
  - split; [lra|]. split; [intros b []|auto].
  - destruct (IH (Rmin m (V b))) as (I1 & I2 & I3). cbv zeta in *. pose proof (Rmin_l m (V b)). pose proof (Rmin_r m (V b)).
    split; [lra|]. split.
    + intros c [<-|Hc]; [lra|auto].
    + destruct I3 as [I3|(c & Hc & E)].
      * rewrite I3. unfold Rmin. destruct (Rle_dec m (V b)); [auto|right; exists b; cbn; auto].
      * right. exists c. cbn; auto.
Qed.

Lemma stride_range : forall bs n c V tol, 1 <= n ->
  (tol < stride_max bs n c V - stride_min bs n c V)%R <->
  exists b b', 0 <= b < n /\ 0 <= b' < n /\ (tol < V (bs*b + c)%Z - V (bs*b' + c)%Z)%R.
Proof.
  intros bs n c V tol Hn. unfold stride_max, stride_min.
  pose proof (fold_max (fun b => V (bs*b + c)) (zseq 1 (n-1)) (V c)) as (M1 & M2 & M3).
  pose proof (fold_min (fun b => V (bs*b + c)) (zseq 1 (n-1)) (V c)) as (m1 & m2 & m3). cbv zeta beta in *.
  set (M := fold_left _ _ _) in M1, M2, M3 |- *. set (mm := fold_left _ _ _) in m1, m2, m3 |- *.
  assert (E0 : V (bs*0 + c) = V c) by (f_equal; lia). split.
  - intros H. 
    assert (A : exists b, 0 <= b < n /\ M = V (bs*b + c)).
    { destruct M3 as [->|(b & Hb & ->)]; [exists 0; rewrite E0; split; [lia|auto]|]. apply in_zseq in Hb. exists b. split; [lia|auto]. }
    assert (B : exists b, 0 <= b < n /\ mm = V (bs*b + c)).
    { destruct m3 as [->|(b & Hb & ->)]; [exists 0; rewrite E0; split; [lia|auto]|]. apply in_zseq in Hb. exists b. split; [lia|auto]. }
    destruct A as (b & Hb & Eb), B as (b' & Hb' & Eb'). exists b, b'. rewrite <- Eb, <- Eb'. auto.
  - intros (b & b' & Hb & Hb' & H).
    assert (A : (V (bs*b + c)%Z <= M)%R). { destruct (Z.eq_dec b 0) as [->|N]; [rewrite E0; auto|]. apply M2, in_zseq. lia. }
    assert (B : (mm <= V (bs*b' + c)%Z)%R). { destruct (Z.eq_dec b' 0) as [->|N]; [rewrite E0; auto|]. apply m2, in_zseq. lia. }
    lra.
Qed.

(** * Axes *)
Section Ext.
  Context {O : KnotOrd}.
  Lemma count_eq_ext : forall (U U' : Z -> O) lo hi v, (forall k, lo <= k <= hi -> U' k = U k) -> count_eq U' lo hi v = count_eq U lo hi v.
  Proof.
    intros U U' lo hi v H. unfold count_eq. do 2 f_equal. apply filter_ext_in. intros k Hk. apply in_zseq in Hk. rewrite H by lia. reflexivity.
  Qed.
  Lemma valid_ext : forall p m (U U' : Z -> O), (forall k, 0 <= k <= m -> U' k = U k) -> valid_knots p m U -> valid_knots p m U'.
  Proof.
    intros p m U U' H (H1 & H2 & H3 & H4). split; [auto|]. split; [auto|]. split.
    - intros i j Hi Hij Hj. rewrite !H by lia. apply H3; auto.
    - intros v. rewrite (count_eq_ext U U') by (intros; apply H; lia). apply H4.
  Qed.
  Lemma elements_ext : forall p m (U U' : Z -> O) l, 0 <= p -> (forall k, 0 <= k <= m -> U' k = U k) -> is_element_list p m U l -> is_element_list p m U' l.
  Proof.
    intros p m U U' l Hp H [H1 H2]. split; [|auto]. intros k. rewrite H1. unfold is_element.
    split; intros [A B]; (split; [exact A|]);
    [rewrite (H k), (H (k+1)) by lia|rewrite (H k), (H (k+1)) in B by lia]; auto.
  Qed.
End Ext.

Lemma axis_reload : forall (a b : axis Rord) U', axis_ready a -> (forall k, 0 <= k <= ax_m a -> U' k = ax_U a k) ->
  exists a', axis_init (O:=Rord) (ax_p a) (ax_m a) U' b = (Ok, a') /\ axis_setup a' = (Ok, a') /\ axis_ready a' /\
    ax_p a' = ax_p a /\ ax_m a' = ax_m a /\ (forall k, 0 <= k <= ax_m a -> ax_U a' k = ax_U a k) /\
    ax_span a' = ax_span a /\ ax_nel a' = ax_nel a /\ ax_periodic a' = ax_periodic b /\
    (ax_periodic b = ax_periodic a -> ax_nnp a' = ax_nnp a).
Proof.
  intros a b U' (l & Hl & V & E & Hn & Hp) HU. pose proof V as (P1 & P2 & _).
  unfold axis_init, axis_set_degree. cbn [ax_p ax_m]. replace (ax_p a <? 1) with false by lia.
  replace ((0 <? 0) && (1 <? ax_m b) && negb (0 =? ax_p a)) with false by reflexivity.
  cbn [ax_periodic ax_m ax_U ax_nnp ax_nel ax_span].
  set (a1 := mk_axis _ _ _ _ _ _ _). pose proof (set_knots_exact a1 (ax_m a) U') as K.
  destruct (axis_set_knots (ax_m a) U' a1) as [st a'] eqn:ES. destruct K as (K1 & K2 & _).
  assert (st = Ok) as -> by (apply K1; exact (valid_ext _ _ _ _ HU V)).
  destruct (K2 eq_refl) as (Ep & Em & EU & Eper). cbn [a1 ax_p ax_periodic] in Ep, Eper.
  destruct (set_knots_spans _ _ _ _ ES) as (l' & L1 & L2 & L3). destruct (set_knots_nnp _ _ _ _ ES) as (N1 & _ & N3).
  destruct (set_knots_wf _ _ _ _ ES) as (l2 & L4).
  assert (l' = l) as ->.
  { pose proof (elements_ext (ax_p a) _ _ U' _ ltac:(lia) HU E) as [E1 E2]. destruct L3 as [F1 F2]. apply sorted_unique; auto.
    intros x. rewrite F1, E1. reflexivity. }
  exists a'. split; [reflexivity|]. split; [exact N3|]. split; [exists l2; exact L4|].
  split; [exact Ep|]. split; [exact Em|]. split; [rewrite EU; auto|]. split; [congruence|]. split; [congruence|]. split; [exact Eper|].
  intros Hper. rewrite N1, Hp. cbn [a1 ax_p ax_periodic]. rewrite Hper, (HU (ax_m a - ax_p a)) by lia.
  rewrite (count_eq_ext (ax_U a) U') by (intros; apply HU; lia). destruct (ax_periodic a); lia.
Qed.

(** * The grid of the geometry ranges *)
Section GeomWorld.
  Context {O : KnotOrd}.
  Variables (g2 : Z -> Z -> Z -> Z) (g3 : Z -> Z -> Z -> Z -> Z) (maxint size dim : Z) (axes : Z -> axis O) (user : list Z) (LY : Z -> layout).
  Hypothesis S : setup_ok g2 g3 maxint size dim axes user LY.

  Lemma geom_world : forall bs, 1 <= bs -> grid_world size bs (geom_size dim axes) (io_grid bs (fun r => ly_geom (LY r))).
  Proof.
    intros bs Hbs. destruct (setup_geom_tile _ _ _ _ _ _ _ _ S) as (T1 & T2).
    assert (Hs : 1 <= size) by (destruct S as (_ & _ & H & _); exact H).
    split; [exact Hs|]. split; [exact Hbs|]. split; [|split].
    - intros d Hd. pose proof (setup_node_facts _ _ _ _ _ _ _ _ S 0 d ltac:(lia) Hd) as K. lia.
    - intros r Hr. split; [reflexivity|]. intros d Hd. unfold io_grid. cbn [grid_of gr_sizes gr_lstart gr_lwidth gr_gwidth].
      pose proof (setup_node_facts _ _ _ _ _ _ _ _ S r d Hr Hd) as K. specialize (T1 r Hr d Hd). unfold zero3 in T1.
      split; [apply K|]. lia.
    - exact T2.
  Qed.

  Lemma geom_own_ghost : forall bs r, 0 <= r < size ->
    subbox (gr_lstart (io_grid bs (fun r => ly_geom (LY r)) r)) (gr_lwidth (io_grid bs (fun r => ly_geom (LY r)) r))
           (gr_gstart (io_grid bs (fun r => ly_geom (LY r)) r)) (gr_gwidth (io_grid bs (fun r => ly_geom (LY r)) r)).
  Proof.
    intros bs r Hr d Hd. unfold io_grid. cbn [grid_of gr_lstart gr_lwidth gr_gstart gr_gwidth].
    pose proof (setup_node_facts _ _ _ _ _ _ _ _ S r d Hr Hd). lia.
  Qed.

  Lemma geom_ghost_in : forall bs r, 0 <= r < size ->
    subbox (gr_gstart (io_grid bs (fun r => ly_geom (LY r)) r)) (gr_gwidth (io_grid bs (fun r => ly_geom (LY r)) r)) zero3 (geom_size dim axes).
  Proof.
    intros bs r Hr d Hd. unfold io_grid, zero3. cbn [grid_of gr_gstart gr_gwidth].
    pose proof (setup_node_facts _ _ _ _ _ _ _ _ S r d Hr Hd) as K.
    destruct (setup_form _ _ _ _ _ _ _ _ S) as (n & Hn & HL & Hdim & Hz & HP & HLY).
    assert (Q : r_gstart (ly_geom (LY r) d) + r_gwidth (ly_geom (LY r) d) <= geom_size dim axes d); [|lia].
    pose proof (setup_wf _ _ _ _ _ _ _ _ S d) as Hwf. clear K. rewrite (HLY r Hr). unfold layout_of; cbn [ly_geom]. unfold geom_size.
    destruct (d <? dim) eqn:E; [|cbn; lia].
    pose proof (pad_coords n r d Hn ltac:(lia) ltac:(lia)) as Hc. specialize (HP d ltac:(lia)).
    destruct (Hwf ltac:(lia)) as (l & L & He). set (P := pad 1 n d) in *. set (c := pad 0 (rank_coords n r) d) in *.
    destruct (wf_ends _ _ L He) as (B0 & _ & B2). destruct (elem_block P (axes d) c HP Hc) as (C1 & C2 & C3 & _).
    pose proof (span_at_gap _ _ L (es P (axes d) c + ew P (axes d) c - 1) (ax_nel (axes d) - 1) ltac:(lia) ltac:(lia) ltac:(lia)) as Gp.
    unfold es, ew in *. unfold geom_range. cbn [r_gstart r_gwidth]. lia.
  Qed.
End GeomWorld.
