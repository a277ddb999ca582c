(** Lemmas about src/petigagrid.c. *)
From Coq Require Import ZArith List Bool Lia Reals Lra Permutation.
From Coq Require Import ZifyBool ZifyNat.
From Verif Require Import Prelude Box AxisInitModel SetupModel GridModel GridSpec.
Import ListNotations.
Open Scope Z_scope.

(* ------------------------------------------------------------------ *)
(** ** writes and additions as lists of (target, value) *)
Definition writes {A} (l : list (Z * A)) (y : Z -> A) : Z -> A :=
  fold_left (fun y p => upd y (fst p) (snd p)) l y.

Lemma writes_app : forall A (l l' : list (Z * A)) y, writes (l ++ l') y = writes l' (writes l y).
Proof. intros. unfold writes. apply fold_left_app. Qed.

Lemma writes_other : forall A (l : list (Z * A)) y t, ~ In t (map fst l) -> writes l y t = y t.
Proof.
  intros A l. induction l as [|[a v] l IH]; intros y t H; [reflexivity|].
  unfold writes in *. cbn [fold_left fst snd]. rewrite IH.
  - unfold upd. destruct (t =? a) eqn:E; auto. exfalso. apply H. left. cbn. lia.
  - intros K. apply H. right. exact K.
Qed.

Lemma writes_spec : forall A (l : list (Z * A)) y t v,
  (forall v', In (t, v') l -> v' = v) -> In (t, v) l -> writes l y t = v.
Proof.
  intros A l. induction l as [|[a w] l IH]; intros y t v Hc H; [destruct H|].
  unfold writes in *. cbn [fold_left fst snd].
  assert (Hc' : forall v', In (t, v') l -> v' = v) by (intros v' K; apply Hc; right; auto).
  destruct (in_dec Z.eq_dec t (map fst l)) as [Hin|Hout].
  - apply in_map_iff in Hin. destruct Hin as ([t' v'] & E & Hin). cbn in E. subst t'.
    assert (v' = v) by (apply Hc'; auto). subst v'. apply IH; auto.
  - pose proof (writes_other A l (upd y a w) t Hout) as W. unfold writes in W. rewrite W.
    destruct H as [H|H].
    + inversion H; subst. unfold upd. rewrite Z.eqb_refl. reflexivity.
    + exfalso. apply Hout. apply in_map_iff. exists (t, v). auto.
Qed.

Definition vpairs (l : list (Z * Z)) : list (Z * Z) := filter (fun p => negb ((fst p <? 0) || (snd p <? 0))) l.

Lemma insert_pairs_writes : forall A l (x y : Z -> A),
  insert_pairs l x y = writes (map (fun p => (snd p, x (fst p))) (vpairs l)) y.
Proof.
  intros A l x. unfold insert_pairs, writes, vpairs.
  induction l as [|p l IH]; intros y; cbn [fold_left filter map]; auto.
  destruct ((fst p <? 0) || (snd p <? 0)); cbn [negb map fold_left fst snd]; apply IH.
Qed.

Lemma fold_writes : forall A B (f : B -> list (Z * A)) (l : list B) y,
  fold_left (fun y b => writes (f b) y) l y = writes (flat_map f l) y.
Proof.
  intros A B f l. induction l as [|b l IH]; intros y; cbn [fold_left flat_map]; auto.
  rewrite writes_app. apply IH.
Qed.

Lemma fold_left_ext' : forall (A B : Type) (f g : A -> B -> A) l a,
  (forall a b, f a b = g a b) -> fold_left f l a = fold_left g l a.
Proof. intros A B f g l. induction l as [|b l IH]; intros a H; cbn; auto. rewrite H. apply IH; auto. Qed.

Lemma rsum_app : forall A (f : A -> R) l l', rsum f (l ++ l') = (rsum f l + rsum f l')%R.
Proof.
  intros. unfold rsum. induction l as [|a l IH]; cbn [app map fold_right]; [lra|]. rewrite IH. lra.
Qed.
Lemma rsum_ext : forall A (f g : A -> R) l, (forall x, In x l -> f x = g x) -> rsum f l = rsum g l.
Proof.
  intros A f g l. unfold rsum. induction l as [|a l IH]; intros H; cbn [map fold_right]; auto.
  rewrite (H a) by (left; auto). rewrite IH; auto. intros; apply H; right; auto.
Qed.
Lemma rsum_flat_map : forall A B (f : B -> R) (g : A -> list B) l,
  rsum f (flat_map g l) = rsum (fun a => rsum f (g a)) l.
Proof.
  intros. induction l as [|a l IH]; cbn [flat_map]; auto. rewrite rsum_app, IH. reflexivity.
Qed.
Lemma rsum_map : forall A B (f : B -> R) (g : A -> B) l, rsum f (map g l) = rsum (fun a => f (g a)) l.
Proof. intros. unfold rsum. rewrite map_map. reflexivity. Qed.
Lemma rsum_perm : forall A (f : A -> R) l l', Permutation l l' -> rsum f l = rsum f l'.
Proof. intros A f l l' H. unfold rsum. induction H; cbn [map fold_right] in *; lra. Qed.
Lemma rsum_zero : forall A (f : A -> R) l, (forall x, In x l -> f x = 0%R) -> rsum f l = 0%R.
Proof.
  intros A f l. unfold rsum. induction l as [|a l IH]; intros H; cbn [map fold_right]; auto.
  rewrite (H a) by (left; auto). rewrite IH; [lra|]. intros; apply H; right; auto.
Qed.
Lemma rsum_plus : forall A (f g : A -> R) l, rsum (fun x => f x + g x)%R l = (rsum f l + rsum g l)%R.
Proof. intros. unfold rsum. induction l as [|a l IH]; cbn [map fold_right]; lra. Qed.
Lemma rsum_scal : forall A c (f : A -> R) l, rsum (fun x => c * f x)%R l = (c * rsum f l)%R.
Proof. intros. unfold rsum. induction l as [|a l IH]; cbn [map fold_right]; lra. Qed.
Lemma rsum_cons : forall A (f : A -> R) a l, rsum f (a :: l) = (f a + rsum f l)%R.
Proof. reflexivity. Qed.
Lemma rsum_single : forall A (f : A -> R) (l : list A) a, NoDup l -> In a l ->
  (forall x, In x l -> x <> a -> f x = 0%R) -> rsum f l = f a.
Proof.
  intros A f l a Hn Hin Hz. induction l as [|b l IH]; [destruct Hin|]. inversion Hn; subst.
  rewrite rsum_cons. destruct Hin as [->|Hin].
  - rewrite rsum_zero; [lra|].
    intros x Hx. apply Hz; [right; auto|]. intros ->. contradiction.
  - rewrite IH; auto; [|intros x Hx; apply Hz; right; auto].
    rewrite (Hz b); [lra|left; auto|]. intros ->. contradiction.
Qed.
Lemma rsum_comm : forall A B (f : A -> B -> R) la lb,
  rsum (fun a => rsum (f a) lb) la = rsum (fun b => rsum (fun a => f a b) la) lb.
Proof.
  intros A B f la lb. induction la as [|a la IH].
  - unfold rsum at 1. cbn [map fold_right]. symmetry. apply rsum_zero. reflexivity.
  - unfold rsum at 1. cbn [map fold_right]. change (fold_right Rplus 0%R (map (fun a0 => rsum (f a0) lb) la)) with (rsum (fun a0 => rsum (f a0) lb) la).
    rewrite IH. rewrite <- rsum_plus. apply rsum_ext. intros b _. reflexivity.
Qed.

Lemma add_pairs_spec : forall l (x y : Z -> R) t, 0 <= t ->
  add_pairs l x y t = (y t + rsum (fun p => if (0 <=? fst p)%Z && (snd p =? t)%Z then x (fst p) else 0%R) l)%R.
Proof.
  intros l x. unfold add_pairs, rsum. induction l as [|p l IH]; intros y t Ht; cbn [fold_left map fold_right].
  - lra.
  - rewrite IH by auto. destruct ((fst p <? 0) || (snd p <? 0)) eqn:E.
    + replace ((0 <=? fst p) && (snd p =? t)) with false by lia. lra.
    + unfold upd. destruct (t =? snd p) eqn:E2.
      * replace ((0 <=? fst p) && (snd p =? t)) with true by lia. replace (snd p) with t by lia. lra.
      * replace ((0 <=? fst p) && (snd p =? t)) with false by lia. lra.
Qed.

Lemma in_blocks : forall bs l a b, 1 <= bs ->
  In (a, b) (blocks bs l) <-> exists p c, In p l /\ 0 <= c < bs /\ a = bs * fst p + c /\ b = bs * snd p + c.
Proof.
  intros bs l a b Hbs. unfold blocks. rewrite in_flat_map. split.
  - intros (p & Hp & H). apply in_map_iff in H. destruct H as (c & E & Hc). apply in_zseq in Hc.
    exists p, c. inversion E. auto with zarith.
  - intros (p & c & Hp & Hc & -> & ->). exists p. split; auto. apply in_map_iff. exists c.
    split; auto. apply in_zseq. lia.
Qed.

Lemma block_inj : forall bs x y c d, 1 <= bs -> 0 <= c < bs -> 0 <= d < bs -> bs * x + c = bs * y + d -> x = y /\ c = d.
Proof.
  intros bs x y c d Hb Hc Hd E.
  assert (x = y).
  { destruct (Z.lt_trichotomy x y) as [H|[H|H]]; auto; exfalso.
    - assert (bs * (x+1) <= bs * y) by (apply Z.mul_le_mono_nonneg_l; lia). lia.
    - assert (bs * (y+1) <= bs * x) by (apply Z.mul_le_mono_nonneg_l; lia). lia. }
  subst. lia.
Qed.

(* ------------------------------------------------------------------ *)
(** ** offsets *)
Lemma zsum_0 : forall f s, zsum f s 0 = 0.
Proof. intros. unfold zsum. rewrite zseq_nil by lia. reflexivity. Qed.
Lemma zsum_S : forall f s n, 0 <= n -> zsum f s (n+1) = zsum f s n + f (s+n).
Proof.
  intros. unfold zsum. rewrite zseq_snoc by auto. rewrite map_app, fold_right_app. cbn [map fold_right].
  generalize (map f (zseq s n)) as l. intros l. induction l as [|a l IH]; cbn [fold_right]; lia.
Qed.

Lemma length_flat_map_zsum : forall (A : Type) (f : Z -> list A) (g : Z -> Z) n, 0 <= n ->
  (forall r, 0 <= r < n -> Z.of_nat (length (f r)) = g r) ->
  Z.of_nat (length (flat_map f (zseq 0 n))) = zsum g 0 n.
Proof.
  intros A f g n Hn. revert n Hn.
  apply (natlike_ind (fun n => (forall r, 0 <= r < n -> Z.of_nat (length (f r)) = g r) ->
    Z.of_nat (length (flat_map f (zseq 0 n))) = zsum g 0 n)).
  - intros _. rewrite zsum_0. rewrite zseq_nil by lia. reflexivity.
  - intros n Hn IH H. unfold Z.succ in *. rewrite zsum_S, zseq_snoc by auto.
    rewrite flat_map_app, app_length. cbn [flat_map]. rewrite app_nil_r.
    rewrite Nat2Z.inj_add, IH by (intros; apply H; lia). rewrite H by lia. f_equal.
Qed.

Lemma nth_flat_map_zseq : forall (A : Type) (f : Z -> list A) n r pos d, 0 <= r < n ->
  (pos < length (f r))%nat ->
  nth (length (flat_map f (zseq 0 r)) + pos) (flat_map f (zseq 0 n)) d = nth pos (f r) d.
Proof.
  intros A f n r pos d Hr Hp.
  replace n with (r + (1 + (n - r - 1))) by lia.
  rewrite zseq_app by lia. rewrite flat_map_app. rewrite app_nth2 by lia.
  replace (_ + pos - _)%nat with pos by lia.
  rewrite zseq_cons by lia. cbn [flat_map]. replace (0 + r) with r by lia. apply app_nth1. auto.
Qed.

(* ------------------------------------------------------------------ *)
Lemma len_box3 : forall s w, (forall d, 0 <= d < 3 -> 0 <= w d) -> Z.of_nat (length (box s w)) = vol w.
Proof.
  intros s w Hw. assert (H0 := Hw 0 ltac:(lia)). assert (H1 := Hw 1 ltac:(lia)). assert (H2 := Hw 2 ltac:(lia)).
  set (w' := fun d => Z.max 0 (w d)).
  assert (E : box s w = box s w').
  { unfold box, w'. rewrite !Z.max_r by auto. reflexivity. }
  rewrite E, length_box by (intros; unfold w'; lia).
  unfold vol, w'. rewrite !Z.max_r by auto. 
  assert (0 <= w 0 * w 1 * w 2) by (apply Z.mul_nonneg_nonneg; [apply Z.mul_nonneg_nonneg|]; auto). lia.
Qed.


Section World.
  Variables (size bs : Z) (N : Z -> Z) (G : Z -> grid).
  Hypothesis W : grid_world size bs N G.

  Lemma w_size : 1 <= size. Proof. apply W. Qed.
  Lemma w_bs : 1 <= bs. Proof. destruct W as (_ & H & _). exact H. Qed.
  Lemma w_N : forall d, 0 <= d < 3 -> 1 <= N d. Proof. destruct W as (_ & _ & H & _). exact H. Qed.
  Lemma w_dof : forall r, 0 <= r < size -> gr_dof (G r) = bs.
  Proof. destruct W as (_ & _ & _ & H & _). intros r Hr. apply H; auto. Qed.
  Lemma w_dir : forall r d, 0 <= r < size -> 0 <= d < 3 ->
    gr_sizes (G r) d = N d /\ 0 <= gr_lstart (G r) d /\ 0 <= gr_lwidth (G r) d /\
       gr_lstart (G r) d + gr_lwidth (G r) d <= N d /\ 0 <= gr_gwidth (G r) d.
  Proof. destruct W as (_ & _ & _ & H & _). intros r d Hr Hd. apply H; auto. Qed.

  Lemma w_lin : forall r t, 0 <= r < size -> lin (gr_sizes (G r)) t = lin N t.
  Proof.
    intros r [[i j] k] Hr. unfold lin. destruct (w_dir r 0 Hr ltac:(lia)) as (-> & _).
    destruct (w_dir r 1 Hr ltac:(lia)) as (-> & _). reflexivity.
  Qed.
  Lemma w_wrap : forall r t, 0 <= r < size -> wrap (gr_sizes (G r)) t = wrap N t.
  Proof.
    intros r [[i j] k] Hr. unfold wrap. destruct (w_dir r 0 Hr ltac:(lia)) as (-> & _).
    destruct (w_dir r 1 Hr ltac:(lia)) as (-> & _). destruct (w_dir r 2 Hr ltac:(lia)) as (-> & _). reflexivity.
  Qed.

  Lemma lin_in_range : forall t, in_box zero3 N t -> 0 <= lin N t < vol N.
  Proof. intros [[i j] k] H. unfold in_box, zero3 in H. apply lin_range; lia. Qed.

  Lemma own_in_grid : forall r t, 0 <= r < size -> in_box (gr_lstart (G r)) (gr_lwidth (G r)) t -> in_box zero3 N t.
  Proof.
    intros r [[i j] k] Hr H. unfold in_box, zero3 in *.
    pose proof (w_dir r 0 Hr ltac:(lia)). pose proof (w_dir r 1 Hr ltac:(lia)). pose proof (w_dir r 2 Hr ltac:(lia)). lia.
  Qed.

  Lemma own_unique : forall r r' t, 0 <= r < size -> 0 <= r' < size ->
    in_box (gr_lstart (G r)) (gr_lwidth (G r)) t -> in_box (gr_lstart (G r')) (gr_lwidth (G r')) t -> r = r'.
  Proof.
    intros r r' t Hr Hr' H H'. pose proof (own_in_grid r t Hr H) as Hg.
    destruct W as (_ & _ & _ & _ & HT). destruct (HT t Hg) as (q & _ & Hq).
    rewrite <- (Hq r), <- (Hq r'); auto.
  Qed.

  Lemma vol_pos : 0 < vol N.
  Proof.
    unfold vol. pose proof (w_N 0 ltac:(lia)). pose proof (w_N 1 ltac:(lia)). pose proof (w_N 2 ltac:(lia)).
    apply Z.mul_pos_pos; [apply Z.mul_pos_pos|]; lia.
  Qed.

  Lemma len_local : forall r, 0 <= r < size -> Z.of_nat (length (local_indices (G r))) = nlocal (G r).
  Proof.
    intros r Hr. unfold local_indices. rewrite map_length. unfold nlocal. apply len_box3.
    intros d Hd. apply (w_dir r d Hr Hd).
  Qed.

  Lemma in_local : forall r x, 0 <= r < size ->
    (In x (local_indices (G r)) <-> exists t, in_box (gr_lstart (G r)) (gr_lwidth (G r)) t /\ x = lin N t).
  Proof.
    intros r x Hr. unfold local_indices. rewrite in_map_iff. split.
    - intros (t & E & H). apply In_box in H. exists t. rewrite w_lin in E; auto.
    - intros (t & H & ->). exists t. split; [apply w_lin; auto|]. apply In_box. auto.
  Qed.

  Lemma app_in : forall x, In x (app_order size G) <-> 0 <= x < vol N.
  Proof.
    intros x. unfold app_order. rewrite in_flat_map. split.
    - intros (r & Hr & H). apply in_zseq in Hr. apply in_local in H; [|lia]. destruct H as (t & H & ->).
      apply lin_in_range. apply (own_in_grid r); auto; lia.
    - intros Hx. destruct (lin_unlin N x) as [E B].
      + pose proof (w_N 0 ltac:(lia)); lia. + pose proof (w_N 1 ltac:(lia)); lia. + pose proof (w_N 2 ltac:(lia)); lia. + auto.
      + destruct W as (_ & _ & _ & _ & HT). destruct (HT _ B) as (r & [Hr Hb] & _).
        exists r. split; [apply in_zseq; lia|]. apply in_local; auto. exists (unlin N x). auto.
  Qed.

  Lemma app_nodup : NoDup (app_order size G).
  Proof.
    unfold app_order. apply NoDup_flat_map.
    - apply NoDup_zseq.
    - intros r Hr. apply in_zseq in Hr. unfold local_indices. apply NoDup_map_inj; [|apply NoDup_box].
      intros x y Hx Hy E. apply In_box in Hx, Hy. rewrite !w_lin in E by lia.
      apply (lin_inj N); auto; apply (own_in_grid r); auto; lia.
    - intros r r' x Hr Hr' H H'. apply in_zseq in Hr, Hr'. apply in_local in H; [|lia]. apply in_local in H'; [|lia].
      destruct H as (t & Ht & ->). destruct H' as (t' & Ht' & E).
      assert (t = t') by (apply (lin_inj N); auto; [apply (own_in_grid r)|apply (own_in_grid r')]; auto; lia). subst t'.
      apply (own_unique r r' t); auto; lia.
  Qed.

  Lemma app_perm : Permutation (app_order size G) (zseq 0 (vol N)).
  Proof.
    apply NoDup_Permutation; [apply app_nodup|apply NoDup_zseq|].
    intros x. rewrite app_in, in_zseq. lia.
  Qed.

  Lemma app_len : Z.of_nat (length (app_order size G)) = vol N.
  Proof. rewrite (Permutation_length app_perm), length_zseq. pose proof vol_pos. lia. Qed.

  Lemma off_len : forall r, 0 <= r <= size -> off G r = Z.of_nat (length (flat_map (fun q => local_indices (G q)) (zseq 0 r))).
  Proof.
    intros r Hr. unfold off. symmetry. apply length_flat_map_zsum; [lia|]. intros q Hq. apply len_local. lia.
  Qed.

  Lemma off_0 : off G 0 = 0. Proof. apply zsum_0. Qed.
  Lemma off_S : forall r, 0 <= r -> off G (r+1) = off G r + nlocal (G r).
  Proof. intros. unfold off. rewrite zsum_S by auto. f_equal. Qed.
  Lemma off_size : off G size = vol N.
  Proof. rewrite off_len by (pose proof w_size; lia). apply app_len. Qed.

  Lemma nlocal_nonneg : forall r, 0 <= r < size -> 0 <= nlocal (G r).
  Proof. intros r Hr. rewrite <- len_local by auto. lia. Qed.

  Lemma off_nonneg : forall r, 0 <= r <= size -> 0 <= off G r.
  Proof. intros r Hr. rewrite off_len by auto. lia. Qed.

  (** Global number of the pos-th owned node of rank r. *)
  Lemma ao_local : forall r pos d, 0 <= r < size -> 0 <= pos < nlocal (G r) ->
    ao size G (nth (Z.to_nat pos) (local_indices (G r)) d) = off G r + pos /\
    0 <= off G r + pos < vol N.
  Proof.
    intros r pos d Hr Hp. pose proof (len_local r Hr) as HL.
    assert (Hlt : (Z.to_nat pos < length (local_indices (G r)))%nat) by lia.
    assert (Hin : In (nth (Z.to_nat pos) (local_indices (G r)) d) (app_order size G)).
    { unfold app_order. apply in_flat_map. exists r. split; [apply in_zseq; lia|]. apply nth_In; auto. }
    assert (Hx : 0 <= nth (Z.to_nat pos) (local_indices (G r)) d < vol N) by (apply app_in; auto).
    unfold ao. replace (_ <? 0) with false by lia.
    pose proof (nth_flat_map_zseq Z (fun q => local_indices (G q)) size r (Z.to_nat pos) d Hr Hlt) as E.
    fold (app_order size G) in E.
    assert (EL : (length (flat_map (fun q => local_indices (G q)) (zseq 0 r)) + Z.to_nat pos < length (app_order size G))%nat).
    { destruct (Nat.lt_ge_cases (length (flat_map (fun q => local_indices (G q)) (zseq 0 r)) + Z.to_nat pos) (length (app_order size G))); auto.
      exfalso. pose proof (off_len (r+1) ltac:(lia)) as H1. rewrite off_S in H1 by lia. rewrite (off_len r) in H1 by lia.
      assert (length (flat_map (fun q => local_indices (G q)) (zseq 0 (r+1))) <= length (app_order size G))%nat.
      { unfold app_order. replace size with ((r+1) + (size - (r+1))) by lia. rewrite (zseq_app 0 (r+1)) by lia.
        rewrite flat_map_app, app_length. lia. }
      lia. }
    rewrite <- E. rewrite index_of_nth by (auto using app_nodup).
    rewrite (off_len r) by lia. split; [lia|]. pose proof app_len. lia.
  Qed.

  Lemma ao_bij : forall b, 0 <= b < vol N -> exists! x, 0 <= x < vol N /\ ao size G x = b.
  Proof.
    intros b Hb. pose proof app_len as HL.
    exists (nth (Z.to_nat b) (app_order size G) 0). split.
    - assert (H : 0 <= nth (Z.to_nat b) (app_order size G) 0 < vol N) by (apply app_in, nth_In; lia).
      split; auto. unfold ao. replace (_ <? 0) with false by lia. rewrite index_of_nth by (auto using app_nodup; lia). lia.
    - intros x [Hx E]. unfold ao in E. replace (x <? 0) with false in E by lia.
      destruct (index_of_in x (app_order size G) 0) as [_ K]; [apply app_in; auto|]. rewrite E in K. exact K.
  Qed.

  Lemma ao_range : forall x, 0 <= x < vol N -> 0 <= ao size G x < vol N.
  Proof.
    intros x Hx. unfold ao. replace (x <? 0) with false by lia.
    destruct (index_of_in x (app_order size G) 0) as [K _]; [apply app_in; auto|]. rewrite app_len in K. exact K.
  Qed.

  Lemma ao_inj : forall x y, 0 <= x < vol N -> 0 <= y < vol N -> ao size G x = ao size G y -> x = y.
  Proof.
    intros x y Hx Hy E. destruct (ao_bij _ (ao_range x Hx)) as (z & _ & Hz).
    rewrite <- (Hz x), <- (Hz y); auto.
  Qed.

  (** Every global block is a position in a unique rank. *)
  Lemma block_owner : forall b, 0 <= b < vol N -> exists r pos, 0 <= r < size /\ 0 <= pos < nlocal (G r) /\ b = off G r + pos.
  Proof.
    intros b Hb. pose proof off_size as HS. pose proof w_size as Hs.
    assert (K : forall n, 0 <= n -> n <= size -> b < off G n -> exists r pos, 0 <= r < n /\ 0 <= pos < nlocal (G r) /\ b = off G r + pos).
    { apply (natlike_ind (fun n => n <= size -> b < off G n -> exists r pos, 0 <= r < n /\ 0 <= pos < nlocal (G r) /\ b = off G r + pos)).
      - intros _ H. rewrite off_0 in H. lia.
      - intros n Hn IH Hle H. unfold Z.succ in *. rewrite off_S in H by auto.
        destruct (Z.lt_ge_cases b (off G n)) as [H1|H1].
        + destruct (IH ltac:(lia) H1) as (r & pos & A & B & C). exists r, pos. split; [lia|auto].
        + exists n, (b - off G n). split; [lia|]. lia. }
    destruct (K size ltac:(lia) ltac:(lia) ltac:(lia)) as (r & pos & H). eauto.
  Qed.

  Lemma off_le : forall r r', 0 <= r <= r' -> r' <= size -> off G r <= off G r'.
  Proof.
    intros r r' Hr. replace r' with (r + (r' - r)) by lia. assert (Hd : 0 <= r' - r) by lia. generalize dependent (r' - r).
    apply (natlike_ind (fun d => r + d <= size -> off G r <= off G (r + d))).
    - intros _. replace (r + 0) with r by lia. lia.
    - intros d Hd IH H. unfold Z.succ in *. replace (r + (d + 1)) with (r + d + 1) by lia. rewrite off_S by lia.
      pose proof (nlocal_nonneg (r+d) ltac:(lia)). specialize (IH ltac:(lia)). lia.
  Qed.

  Lemma block_owner_unique : forall r pos r' pos', 0 <= r < size -> 0 <= r' < size ->
    0 <= pos < nlocal (G r) -> 0 <= pos' < nlocal (G r') -> off G r + pos = off G r' + pos' -> r = r' /\ pos = pos'.
  Proof.
    intros r pos r' pos' Hr Hr' Hp Hp' E.
    assert (r = r').
    { destruct (Z.lt_trichotomy r r') as [H|[H|H]]; auto; exfalso.
      - pose proof (off_le (r+1) r' ltac:(lia) ltac:(lia)) as K. rewrite off_S in K by lia. lia.
      - pose proof (off_le (r'+1) r ltac:(lia) ltac:(lia)) as K. rewrite off_S in K by lia. lia. }
    subst. lia.
  Qed.

  (* ---------------- wrap-around ---------------- *)
  Lemma wrap1_mod : forall n i, 1 <= n -> - n <= i -> wrap1 n i = i mod n.
  Proof.
    intros n i Hn Hi. unfold wrap1. destruct (i <? 0) eqn:E.
    - replace i with (n + i + (-1) * n) at 2 by ring. rewrite Z.mod_add by lia. rewrite Z.mod_small by lia. reflexivity.
    - destruct (n <=? i) eqn:E2; auto. rewrite Z.mod_small by lia. reflexivity.
  Qed.

  Lemma modbox_in : forall t, in_box zero3 N (modbox N t).
  Proof.
    intros [[i j] k]. unfold modbox, in_box, zero3.
    pose proof (w_N 0 ltac:(lia)). pose proof (w_N 1 ltac:(lia)). pose proof (w_N 2 ltac:(lia)).
    pose proof (Z.mod_pos_bound i (N 0) ltac:(lia)). pose proof (Z.mod_pos_bound j (N 1) ltac:(lia)).
    pose proof (Z.mod_pos_bound k (N 2) ltac:(lia)). lia.
  Qed.

  Lemma modbox_id : forall t, in_box zero3 N t -> modbox N t = t.
  Proof. intros [[i j] k] H. unfold in_box, zero3 in H. unfold modbox. rewrite !Z.mod_small by lia. reflexivity. Qed.

  Lemma nth_ghost : forall r (i j k : Z), 0 <= r < size ->
    0 <= i < gr_gwidth (G r) 0 -> 0 <= j < gr_gwidth (G r) 1 -> 0 <= k < gr_gwidth (G r) 2 ->
    nth (Z.to_nat (lin (gr_gwidth (G r)) (i,j,k))) (ghost_indices (G r)) (-1) =
    lin N (wrap N (gr_gstart (G r) 0 + i, gr_gstart (G r) 1 + j, gr_gstart (G r) 2 + k)).
  Proof.
    intros r i j k Hr Hi Hj Hk. unfold ghost_indices.
    pose proof (lin_range (gr_gwidth (G r)) i j k Hi Hj Hk) as HR.
    assert (HL : Z.of_nat (length (box (gr_gstart (G r)) (gr_gwidth (G r)))) = vol (gr_gwidth (G r))).
    { apply len_box3. intros d Hd. apply (w_dir r d Hr Hd). }
    rewrite nth_indep with (d' := (fun t => lin (gr_sizes (G r)) (wrap (gr_sizes (G r)) t)) (0,0,0)) by (rewrite map_length; lia).
    rewrite map_nth with (f := fun t => lin (gr_sizes (G r)) (wrap (gr_sizes (G r)) t)). rewrite nth_box by auto. rewrite w_lin, w_wrap by auto. reflexivity.
  Qed.

  Lemma lgmap_coords : forall r i j k, 0 <= r < size ->
    (forall d, 0 <= d < 3 -> - N d <= gr_gstart (G r) d) ->
    0 <= i < gr_gwidth (G r) 0 -> 0 <= j < gr_gwidth (G r) 1 -> 0 <= k < gr_gwidth (G r) 2 ->
    lgmap size G r (lin (gr_gwidth (G r)) (i,j,k)) =
    ao size G (lin N (modbox N (gr_gstart (G r) 0 + i, gr_gstart (G r) 1 + j, gr_gstart (G r) 2 + k))).
  Proof.
    intros r i j k Hr Hg Hi Hj Hk. unfold lgmap. rewrite nth_ghost by auto. f_equal. f_equal.
    unfold wrap, modbox. pose proof (Hg 0 ltac:(lia)). pose proof (Hg 1 ltac:(lia)). pose proof (Hg 2 ltac:(lia)).
    pose proof (w_N 0 ltac:(lia)). pose proof (w_N 1 ltac:(lia)). pose proof (w_N 2 ltac:(lia)).
    rewrite !wrap1_mod by lia. reflexivity.
  Qed.
End World.
