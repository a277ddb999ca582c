From Coq Require Import ZArith List Bool Lia Reals Lra Sorted.
From Coq Require Import ZifyBool ZifyNat.
From Verif Require Import Prelude RealOrd AxisModel AxisSpec AxisProofs AxisInitModel.
Import ListNotations.
Open Scope Z_scope.

Lemma upd_same : forall A (U : Z -> A) i v, upd U i v i = v.
Proof. intros. unfold upd. rewrite Z.eqb_refl. reflexivity. Qed.
Lemma upd_other : forall A (U : Z -> A) i v x, x <> i -> upd U i v x = U x.
Proof. intros. unfold upd. replace (x =? i) with false by lia. reflexivity. Qed.

(** Induction principle for a fold over a range. *)
Lemma fold_zseq_inv : forall (S : Type) (f : S -> Z -> S) (Inv : Z -> S -> Prop) s n x0,
  Inv s x0 ->
  (forall i x, s <= i < s + n -> Inv i x -> Inv (i+1) (f x i)) ->
  Inv (s + Z.max 0 n) (fold_left f (zseq s n) x0).
Proof.
  intros S f Inv s n x0 H0 Hstep.
  destruct (Z.leb_spec n 0) as [Hn|Hn].
  - rewrite zseq_nil by lia. cbn. replace (s + Z.max 0 n) with s by lia. auto.
  - replace (Z.max 0 n) with n by lia.
    assert (Hgen : forall d, 0 <= d -> d <= n -> Inv (s+d) (fold_left f (zseq s d) x0)).
    { intros d Hd. pattern d. apply natlike_ind; [| |exact Hd].
      - intros _. rewrite zseq_nil by lia. cbn. replace (s+0) with s by lia. auto.
      - intros x Hx IH Hle. replace (Z.succ x) with (x+1) by lia.
        rewrite zseq_snoc by lia. rewrite fold_left_app. cbn.
        replace (s + (x+1)) with (s + x + 1) by lia. apply Hstep; [lia|apply IH; lia]. }
    apply Hgen; lia.
Qed.

Lemma write_open_spec : forall p m u0 ur U i, 0 <= p -> 2*p+1 <= m ->
  write_open p m u0 ur U i =
    if (0 <=? i) && (i <=? p) then u0 else if (m-p <=? i) && (i <=? m) then ur else U i.
Proof.
  intros p m u0 ur U i Hp Hm. unfold write_open.
  pose proof (fold_zseq_inv (Z -> R) (fun U k => upd (upd U k u0) (m-k) ur)
    (fun k V => forall i, V i = if (0 <=? i) && (i <? k) then u0
                    else if (m-k <? i) && (i <=? m) then ur else U i) 0 (p+1) U) as H.
  replace (0 + Z.max 0 (p+1)) with (p+1) in H by lia.
  rewrite H; clear H.
  - destruct (Z.leb_spec 0 i), (Z.leb_spec i p), (Z.ltb_spec i (p+1)), (Z.leb_spec (m-p) i),
      (Z.ltb_spec (m-(p+1)) i), (Z.leb_spec i m); cbn; try lia; auto.
  - intros j. destruct (Z.leb_spec 0 j), (Z.ltb_spec j 0), (Z.ltb_spec (m-0) j), (Z.leb_spec j m); cbn; try lia; auto.
  - intros k V Hk HV j. unfold upd.
    destruct (Z.eqb_spec j (m-k)) as [->|Hne].
    + destruct (Z.leb_spec 0 (m-k)), (Z.ltb_spec (m-k) (k+1)), (Z.ltb_spec (m-(k+1)) (m-k)), (Z.leb_spec (m-k) m); cbn; try lia; auto.
    + destruct (Z.eqb_spec j k) as [->|Hne2].
      * destruct (Z.leb_spec 0 k), (Z.ltb_spec k (k+1)); cbn; try lia; auto.
      * rewrite HV.
        destruct (Z.leb_spec 0 j), (Z.ltb_spec j k), (Z.ltb_spec j (k+1)), (Z.ltb_spec (m-k) j),
          (Z.ltb_spec (m-(k+1)) j), (Z.leb_spec j m); cbn; try lia; auto.
Qed.

Lemma write_interior_inner : forall s v (U : Z -> R) k, 0 <= s ->
  let r := fold_left (fun (Uk : (Z -> R) * Z) (_ : Z) => (upd (fst Uk) (snd Uk) v, snd Uk + 1))
              (zseq 0 s) (U, k) in
  snd r = k + s /\ forall i, fst r i = if (k <=? i) && (i <? k+s) then v else U i.
Proof.
  intros s v U k Hs.
  pose proof (fold_zseq_inv ((Z -> R) * Z) (fun (Uk : (Z -> R) * Z) (_ : Z) => (upd (fst Uk) (snd Uk) v, snd Uk + 1))
    (fun j r => snd r = k + j /\ forall i, fst r i = if (k <=? i) && (i <? k+j) then v else U i) 0 s (U,k)) as H.
  replace (0 + Z.max 0 s) with s in H by lia. apply H; clear H.
  - cbn. split; [lia|]. intros i. destruct (Z.leb_spec k i), (Z.ltb_spec i (k+0)); cbn; try lia; auto.
  - intros j [V q] Hj [Hq HV]. cbn in *. split; [lia|]. intros i. unfold upd. rewrite HV. subst q.
    destruct (Z.eqb_spec i (k+j)), (Z.leb_spec k i), (Z.ltb_spec i (k+j)), (Z.ltb_spec i (k+(j+1))); cbn; try lia; auto.
Qed.

(** Break index of knot i (can be negative or exceed r outside the domain). *)
Definition bidx (p s i : Z) : Z := 1 + (i - p - 1) / s.

Lemma write_interior_spec : forall p s r brk U i, 1 <= s -> 1 <= r ->
  fst (write_interior s r brk (p+1) U) i =
    if (p+1 <=? i) && (i <? p + 1 + (r-1)*s) then brk (bidx p s i) else U i.
Proof.
  intros p s r brk U i Hs Hr. unfold write_interior.
  pose proof (fold_zseq_inv ((Z -> R) * Z) (fun Uk i =>
    fold_left (fun (Uk : (Z -> R) * Z) (_ : Z) => (upd (fst Uk) (snd Uk) (brk i), snd Uk + 1))
              (zseq 0 s) Uk)
    (fun j W => snd W = p+1+(j-1)*s /\
       forall i, fst W i = if (p+1 <=? i) && (i <? p+1+(j-1)*s) then brk (bidx p s i) else U i) 1 (r-1) (U,p+1)) as H.
  replace (1 + Z.max 0 (r-1)) with r in H by lia. apply H; clear H.
  - cbn. split; [lia|]. intros j. replace (p+1+(1-1)*s) with (p+1) by lia.
    destruct (Z.leb_spec (p+1) j), (Z.ltb_spec j (p+1)); cbn; try lia; auto.
  - intros j [V q] Hj [Hq HV]. cbn in *.
    destruct (write_interior_inner s (brk j) V q ltac:(lia)) as [H1 H2].
    split; [rewrite H1; nia|]. intros x. rewrite H2. rewrite HV. subst q.
    replace (p+1+(j-1)*s+s) with (p+1+(j+1-1)*s) by ring.
    destruct (Z.leb_spec (p+1+(j-1)*s) x), (Z.ltb_spec x (p+1+(j+1-1)*s)),
      (Z.leb_spec (p+1) x), (Z.ltb_spec x (p+1+(j-1)*s)); cbn [andb]; try lia; auto; try nia.
    f_equal. unfold bidx. assert (HH : (x-p-1)/s = j-1).
    { symmetry. apply Z.div_unique with (x - p - 1 - s*(j-1)); nia. }
    rewrite HH. lia.
Qed.

(** The clamped knots (non periodic axis). *)
Definition open_knot (p s r : Z) (brk : Z -> R) (i : Z) : R :=
  brk (Z.max 0 (Z.min r (bidx p s i))).

(** Periodic extension of the breaks. *)
Definition ext_break (r : Z) (brk : Z -> R) (b : Z) : R :=
  (brk (b mod r)%Z + IZR (b / r) * (brk r - brk 0%Z))%R.
Definition per_knot (p s r : Z) (brk : Z -> R) (i : Z) : R := ext_break r brk (bidx p s i).

Lemma bidx_mono : forall p s i j, 1 <= s -> i <= j -> bidx p s i <= bidx p s j.
Proof. intros. unfold bidx. pose proof (Z.div_le_mono (i-p-1) (j-p-1) s). lia. Qed.

Lemma bidx_add : forall p s i k, 1 <= s -> bidx p s (i + k*s) = bidx p s i + k.
Proof.
  intros. unfold bidx. replace (i + k*s - p - 1) with (i - p - 1 + k*s) by ring.
  rewrite Z.div_add by lia. lia.
Qed.

Lemma bidx_range : forall p s i b, 1 <= s ->
  (bidx p s i = b <-> p + 1 + (b-1)*s <= i < p + 1 + b*s).
Proof.
  intros. unfold bidx. split.
  - intros <-. pose proof (Z.div_mod (i-p-1) s ltac:(lia)). pose proof (Z.mod_pos_bound (i-p-1) s ltac:(lia)). nia.
  - intros Hb. assert (HH : (i-p-1)/s = b-1).
    { symmetry. apply Z.div_unique with (i-p-1-s*(b-1)); nia. }
    rewrite HH. lia.
Qed.

Section InitBody.
  Variables (p C r : Z) (brk : Z -> R) (U0 : Z -> R).
  Hypothesis HC : 0 <= C < p.
  Hypothesis Hr : 1 <= r.
  Let s := p - C.
  Let m := 2*(p+1) + (r-1)*s - 1.
  Let n := m - p - 1.

  Lemma m_ge : 2*p+1 <= m.
  Proof. unfold m, s. nia. Qed.

  Let U2 := fst (write_interior s r brk (p+1) (write_open p m (brk 0) (brk r) U0)).

  Lemma U2_spec : forall i, 0 <= i <= m -> U2 i = open_knot p s r brk i.
  Proof.
    intros i Hi. unfold U2. rewrite write_interior_spec by (unfold s; lia).
    rewrite write_open_spec; [|lia|apply m_ge].
    unfold open_knot.
    assert (Hms : m = 2*p+1+(r-1)*s) by (unfold m; lia).
    destruct (Z.leb_spec (p+1) i), (Z.ltb_spec i (p+1+(r-1)*s)); cbn [andb].
    - f_equal. 
      assert (1 <= bidx p s i).
      { replace 1 with (bidx p s (p+1)). apply bidx_mono; unfold s; lia.
        apply bidx_range; unfold s; lia. }
      assert (bidx p s i < r).
      { destruct (Z.ltb_spec (bidx p s i) r); auto.
        pose proof (proj1 (bidx_range p s i (bidx p s i) ltac:(unfold s; lia)) eq_refl).
        assert ((bidx p s i - 1)*s >= (r-1)*s) by (unfold s in *; nia). lia. }
      lia.
    - replace ((0 <=? i) && (i <=? p)) with false by lia.
      replace ((m-p <=? i) && (i <=? m)) with true by lia.
      f_equal. assert (r <= bidx p s i); [|lia].
      replace r with (bidx p s (p+1+(r-1)*s)). apply bidx_mono; unfold s; lia.
      apply bidx_range; unfold s; try lia; nia.
    - replace ((0 <=? i) && (i <=? p)) with true by lia.
      f_equal. assert (bidx p s i <= 0); [|lia].
      replace 0 with (bidx p s p). apply bidx_mono; unfold s; lia.
      apply bidx_range; unfold s; try lia; nia.
    - assert (0 <= (r-1)*s) by (unfold s; nia). lia.
  Qed.

  Lemma ext_break_add : forall b k, ext_break r brk (b + k*r) = (ext_break r brk b + IZR k * (brk r - brk 0%Z))%R.
  Proof.
    intros. unfold ext_break. rewrite Z.mod_add, Z.div_add by lia. rewrite plus_IZR. ring.
  Qed.

  Lemma ext_break_in : forall b, 0 <= b <= r -> ext_break r brk b = brk b.
  Proof.
    intros b Hb. unfold ext_break. destruct (Z.eq_dec b r) as [->|].
    - rewrite Z.mod_same, Z.div_same by lia. lra.
    - rewrite Z.mod_small, Z.div_small by lia. lra.
  Qed.

  Lemma U3_spec : forall i, 0 <= i <= m -> write_periodic p m n C U2 i = per_knot p s r brk i.
  Proof.
    intros i Hi. unfold write_periodic.
    assert (Hms : m = 2*p+1+(r-1)*s) by (unfold m; lia).
    assert (Hns : n = p + (r-1)*s) by (unfold n; lia).
    assert (Hs0 : 0 <= (r-1)*s) by (unfold s; nia).
    pose proof m_ge as Hmge.
    match goal with |- fold_left ?f _ _ _ = _ =>
      pose proof (fold_zseq_inv (Z -> R) f
        (fun k V => forall i, C-k < i < m-C+k -> V i = per_knot p s r brk i) 0 (C+1) U2) as H end.
    replace (0 + Z.max 0 (C+1)) with (C+1) in H by lia.
    apply H; clear H; [| |lia].
    - intros j Hj. rewrite U2_spec by lia. unfold open_knot, per_knot.
      assert (0 <= bidx p s j <= r).
      { split.
        - replace 0 with (bidx p s (C+1)). apply bidx_mono; unfold s; lia.
          apply bidx_range; unfold s; lia.
        - replace r with (bidx p s (m-C-1)). apply bidx_mono; unfold s; lia.
          apply bidx_range; [unfold s; lia|]. unfold s in *; nia. }
      rewrite ext_break_in by lia. f_equal. lia.
    - intros k V Hk HV j Hj.
      assert (Hmp : V (m-p) = brk r).
      { rewrite HV by lia. unfold per_knot. replace (bidx p s (m-p)) with r.
        - apply ext_break_in; lia. - symmetry. apply bidx_range; unfold s in *; nia. }
      assert (Hp0 : V p = brk 0).
      { rewrite HV by lia. unfold per_knot. replace (bidx p s p) with 0.
        - apply ext_break_in; lia. - symmetry. apply bidx_range; unfold s in *; nia. }
      assert (V1 : forall x, C-k <= x < m-C+k -> upd V (C-k) (V p - V (m-p)%Z + V (n-k)%Z)%R x = per_knot p s r brk x).
      { intros x Hx. unfold upd. destruct (Z.eqb_spec x (C-k)) as [->|]; [|apply HV; lia].
        rewrite Hmp, Hp0, HV by (unfold s in *; nia). unfold per_knot.
        replace (n-k) with (C-k + r*s) by (unfold s in *; nia).
        rewrite bidx_add by (unfold s; lia).
        replace (bidx p s (C-k) + r) with (bidx p s (C-k) + 1*r) by lia.
        rewrite ext_break_add. ring. }
      unfold upd at 1. destruct (Z.eqb_spec j (m-C+k)) as [->|]; [|apply V1; lia].
      rewrite !V1 by lia. unfold per_knot.
      replace (bidx p s (m-p)) with r by (symmetry; apply bidx_range; unfold s in *; nia).
      replace (bidx p s p) with 0 by (symmetry; apply bidx_range; unfold s in *; nia).
      rewrite !ext_break_in by lia.
      replace (m-C+k) with (p+1+k + r*s) by (unfold s in *; nia).
      rewrite bidx_add by (unfold s; lia).
      replace (bidx p s (p+1+k) + r) with (bidx p s (p+1+k) + 1*r) by lia.
      rewrite ext_break_add. ring.
  Qed.

  Definition brk_increasing : Prop := forall i, 1 <= i <= r -> (brk (i-1)%Z < brk i)%R.
  Hypothesis Hbrk : brk_increasing.

  Lemma brk_lt : forall i j, 0 <= i -> i < j -> j <= r -> (brk i < brk j)%R.
  Proof.
    intros i j Hi Hij Hj.
    assert (Hind : forall d, 1 <= d -> i + d <= r -> (brk i < brk (i+d)%Z)%R).
    { intros d Hd. pattern d. apply Zlt_lower_bound_ind with (z:=1); [|exact Hd].
      intros x IH Hx Hr'. destruct (Z.eq_dec x 1) as [->|].
      - specialize (Hbrk (i+1) ltac:(lia)). replace (i+1-1) with i in Hbrk by lia. auto.
      - apply Rlt_trans with (brk (i + (x-1))%Z); [apply IH; lia|].
        specialize (Hbrk (i+x) ltac:(lia)). replace (i+x-1) with (i+(x-1)) in Hbrk by lia. auto. }
    replace j with (i+(j-i)) by lia. apply Hind; lia.
  Qed.

  Lemma ext_break_lt1 : forall b, (ext_break r brk b < ext_break r brk (b+1))%R.
  Proof.
    intros b. pose proof (Z.div_mod b r ltac:(lia)) as Hdm. pose proof (Z.mod_pos_bound b r ltac:(lia)) as Hmb.
    set (q := b / r) in *. set (c := b mod r) in *.
    replace b with (c + q*r) by lia. replace (c + q*r + 1) with ((c+1) + q*r) by lia.
    rewrite !ext_break_add, !ext_break_in by lia.
    pose proof (brk_lt c (c+1) ltac:(lia) ltac:(lia) ltac:(lia)). lra.
  Qed.

  Lemma ext_break_lt : forall b c, b < c -> (ext_break r brk b < ext_break r brk c)%R.
  Proof.
    intros b c Hbc.
    assert (Hind : forall d, 1 <= d -> (ext_break r brk b < ext_break r brk (b+d))%R).
    { intros d Hd. pattern d. apply Zlt_lower_bound_ind with (z:=1); [|exact Hd].
      intros x IH Hx. destruct (Z.eq_dec x 1) as [->|]; [apply ext_break_lt1|].
      apply Rlt_trans with (ext_break r brk (b+(x-1))); [apply IH; lia|].
      replace (b+x) with (b+(x-1)+1) by lia. apply ext_break_lt1. }
    replace c with (b+(c-b)) by lia. apply Hind; lia.
  Qed.

  Definition final (per : bool) : Z -> R := if per then write_periodic p m n C U2 else U2.

  (** effective break index *)
  Definition ebidx (per : bool) (i : Z) : Z :=
    if per then bidx p s i else Z.max 0 (Z.min r (bidx p s i)).

  Lemma final_spec : forall per i, 0 <= i <= m -> final per i = ext_break r brk (ebidx per i).
  Proof.
    intros [] i Hi; unfold final, ebidx.
    - apply U3_spec; auto.
    - rewrite U2_spec by auto. unfold open_knot. symmetry. apply ext_break_in. lia.
  Qed.

  Lemma ebidx_mono : forall per i j, i <= j -> ebidx per i <= ebidx per j.
  Proof.
    intros per i j Hij. pose proof (bidx_mono p s i j ltac:(unfold s; lia) Hij). unfold ebidx. destruct per; lia.
  Qed.

  Lemma ext_break_le_iff : forall b c, (ext_break r brk b <= ext_break r brk c)%R <-> b <= c.
  Proof.
    intros b c. split.
    - intros H. destruct (Z.leb_spec b c) as [|Hl]; auto. apply ext_break_lt in Hl. lra.
    - intros H. destruct (Z.eq_dec b c) as [->|]; [lra|]. left. apply ext_break_lt; lia.
  Qed.
  Lemma ext_break_lt_iff : forall b c, (ext_break r brk b < ext_break r brk c)%R <-> b < c.
  Proof.
    intros b c. split; [|apply ext_break_lt].
    intros H. destruct (Z.ltb_spec b c) as [|Hl]; auto. apply ext_break_le_iff in Hl. lra.
  Qed.

  Lemma final_nondecreasing : forall per, @nondecreasing Rord m (final per).
  Proof.
    intros per i j Hi Hij Hj. apply kle_R. rewrite !final_spec by lia.
    apply ext_break_le_iff. apply ebidx_mono; lia.
  Qed.

  Lemma final_mult_bound : forall per, @mult_bound Rord p m (final per).
  Proof.
    intros per i Hi Him. apply klt_R. rewrite !final_spec by lia. apply ext_break_lt_iff.
    assert (Hstep : bidx p s i + 1 <= bidx p s (i+p)).
    { rewrite <- (bidx_add p s i 1) by (unfold s; lia). apply bidx_mono; unfold s; lia. }
    unfold ebidx. destruct per; [lia|].
    assert (Hms : m = 2*p+1+(r-1)*s) by (unfold m; lia).
    destruct (Z.leb_spec i p) as [Hip|Hip].
    - assert (bidx p s i <= 0).
      { replace 0 with (bidx p s p). apply bidx_mono; unfold s; lia. apply bidx_range; unfold s; try lia; nia. }
      assert (1 <= bidx p s (i+p)).
      { replace 1 with (bidx p s (p+1)). apply bidx_mono; unfold s; lia. apply bidx_range; unfold s; lia. }
      lia.
    - assert (1 <= bidx p s i).
      { replace 1 with (bidx p s (p+1)). apply bidx_mono; unfold s; lia. apply bidx_range; unfold s; lia. }
      assert (bidx p s i <= r - 1).
      { replace (r-1) with (bidx p s (p+(r-1)*s)). apply bidx_mono; unfold s; try lia. apply bidx_range; unfold s; try lia; nia. }
      lia.
  Qed.

  Lemma final_valid : forall per, @valid_knots Rord p m (final per).
  Proof.
    intros per. split; [lia|]. split; [apply m_ge|]. split; [apply final_nondecreasing|].
    apply count_eq_mult_bound; [lia|apply final_nondecreasing|apply final_mult_bound].
  Qed.

  Lemma bidx_dom : forall i, p <= i <= m - p -> 0 <= bidx p s i <= r.
  Proof.
    intros i Hi. assert (Hms : m = 2*p+1+(r-1)*s) by (unfold m; lia). split.
    - replace 0 with (bidx p s p). apply bidx_mono; unfold s; lia. apply bidx_range; unfold s; try lia; nia.
    - replace r with (bidx p s (m-p)). apply bidx_mono; unfold s; lia.
      apply bidx_range; unfold s in *; try lia; nia.
  Qed.

  Lemma ebidx_dom : forall per i, p <= i <= m - p -> ebidx per i = bidx p s i.
  Proof. intros per i Hi. pose proof (bidx_dom i Hi). unfold ebidx; destruct per; lia. Qed.

  Lemma final_elements : forall per,
    @is_element_list Rord p m (final per) (map (fun i => p + i*s) (zseq 0 r)).
  Proof.
    intros per. assert (Hms : m = 2*p+1+(r-1)*s) by (unfold m; lia). split.
    - intros k. rewrite in_map_iff. unfold is_element. rewrite klt_R. split.
      + intros (i & <- & Hi). apply in_zseq in Hi.
        assert (p <= p + i*s <= m - p - 1) by (unfold s in *; nia). split; auto.
        rewrite !final_spec by lia. apply ext_break_lt_iff. rewrite !ebidx_dom by lia.
        replace (p+i*s+1) with (p+1+i*s) by lia. rewrite !bidx_add by (unfold s; lia).
        replace (bidx p s p) with 0 by (symmetry; apply bidx_range; unfold s; nia).
        replace (bidx p s (p+1)) with 1 by (symmetry; apply bidx_range; unfold s; nia). lia.
      + intros [Hk Hlt]. rewrite !final_spec in Hlt by lia. apply ext_break_lt_iff in Hlt.
        rewrite !ebidx_dom in Hlt by lia. 
        pose proof (bidx_dom k ltac:(lia)) as Hb.
        pose proof (bidx_dom (k+1) ltac:(lia)) as Hb1.
        set (b := bidx p s k) in *. set (b1 := bidx p s (k+1)) in *.
        pose proof (proj1 (bidx_range p s k b ltac:(unfold s; lia)) eq_refl).
        pose proof (proj1 (bidx_range p s (k+1) b1 ltac:(unfold s; lia)) eq_refl).
        exists b. rewrite in_zseq. unfold s in *. split; [nia|]. lia.
    - assert (Hgen : forall d a, 0 <= d -> StronglySorted Z.lt (map (fun i => p + i*s) (zseq a d))).
      { intros d a Hd. revert a. pattern d. apply natlike_ind; [| |exact Hd].
        - intros a. rewrite zseq_nil by lia. constructor.
        - intros x Hx IH a. rewrite zseq_cons by lia. cbn. constructor.
          + replace (Z.succ x - 1) with x by lia. apply IH.
          + apply Forall_forall. intros y Hy. apply in_map_iff in Hy. destruct Hy as (i & <- & Hi).
            apply in_zseq in Hi. unfold s in *. nia. }
      apply Hgen; lia.
  Qed.

  Lemma final_nnp : forall per,
    @axis_nnp Rord per p m (final per) = (if per then n - C else n + 1).
  Proof.
    intros []; unfold axis_nnp; [|unfold n; lia].
    replace (m-p-1+1) with (m-p) by lia.
    pose proof m_ge as Hm.
    assert (Hms : m = 2*p+1+(r-1)*s) by (unfold m; lia).
    destruct (@next_knot_up_spec Rord m (final true) (m-p) ltac:(lia)) as (H1 & H2 & H3).
    set (j := @next_knot_up Rord m (final true) (m-p)) in *.
    assert (Hb : bidx p s (m-p) = r) by (apply bidx_range; unfold s in *; nia).
    assert (j = m - C); [|unfold n; lia].
    destruct (Z.lt_trichotomy j (m-C)) as [Hlt|[|Hgt]]; auto; exfalso.
    - assert (j < m) as Hjm by lia. specialize (H3 Hjm). apply klt_R in H3.
      rewrite !final_spec in H3 by lia. apply ext_break_lt_iff in H3. unfold ebidx in H3.
      rewrite Hb in H3. assert (bidx p s j = r); [|lia]. apply bidx_range; unfold s in *; nia.
    - specialize (H2 (m-C) ltac:(lia)). apply kle_R in H2. rewrite !final_spec in H2 by lia.
      apply ext_break_le_iff in H2. unfold ebidx in H2. rewrite Hb in H2.
      assert (bidx p s (m-C) = r+1); [|lia]. apply bidx_range; unfold s in *; nia.
  Qed.

  Lemma nnp_periodic_value : n - C = r * s.
  Proof. unfold n, m, s. ring. Qed.

  Lemma final_periodic : forall i, 0 <= i -> i + r*s <= m ->
    final true (i + r*s) = (final true i + (brk r - brk 0%Z))%R.
  Proof.
    intros i Hi Him. assert (0 <= r*s) by (unfold s; nia).
    rewrite !final_spec by lia. unfold ebidx. rewrite bidx_add by (unfold s; lia).
    replace (bidx p s i + r) with (bidx p s i + 1 * r) by lia. rewrite ext_break_add. ring.
  Qed.

  Lemma final_domain : forall per b, 0 <= b <= r -> final per (p + b*s) = brk b /\ (b < r -> final per (p+b*s+1) = brk (b+1)).
  Proof.
    intros per b Hb. assert (Hms : m = 2*p+1+(r-1)*s) by (unfold m; lia).
    pose proof m_ge.
    destruct (Z.eq_dec b r) as [->|Hne].
    - split; [|lia]. rewrite final_spec by (unfold s in *; nia).
      rewrite <- (ext_break_in r) by lia. f_equal.
      assert (Hbb : bidx p s (p+r*s) = r).
      { rewrite bidx_add by (unfold s; lia).
        replace (bidx p s p) with 0 by (symmetry; apply bidx_range; unfold s; nia). lia. }
      unfold ebidx. destruct per; lia.
    - assert (p + b*s + 1 <= m - p) by (unfold s in *; nia).
      assert (0 <= b*s) by (unfold s in *; nia).
      rewrite !final_spec by lia. rewrite !ebidx_dom by lia.
      replace (p+b*s+1) with (p+1+b*s) by lia. rewrite !bidx_add by (unfold s; lia).
      replace (bidx p s p) with 0 by (symmetry; apply bidx_range; unfold s; nia).
      replace (bidx p s (p+1)) with 1 by (symmetry; apply bidx_range; unfold s; nia).
      rewrite !ext_break_in by lia. split; [f_equal; lia|intros; f_equal; lia].
  Qed.

  (** multiplicities *)
  Lemma final_eq_iff : forall per i b, 0 <= i <= m -> 0 <= b <= r ->
     (final per i = brk b <-> ebidx per i = b).
  Proof.
    intros per i b Hi Hb. rewrite final_spec by auto. rewrite <- (ext_break_in b) by auto.
    split; [|intros ->; auto].
    intros H. destruct (Z.lt_trichotomy (ebidx per i) b) as [H1|[|H1]]; auto; apply ext_break_lt in H1; lra.
  Qed.
End InitBody.
