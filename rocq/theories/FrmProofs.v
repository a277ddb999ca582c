(** The memory of a form refines the tables of BCModel.v. *)
From Coq Require Import ZArith List Bool Lia FinFun.
From Verif Require Import Prelude BCModel BCSpec BCProofs FrmModel FrmSpec.
Import ListNotations.
Open Scope Z_scope.

Section P.
Variable V : Type.
Variable zero : V.

Definition tab (b : bcb V) (s n : Z) : list (Z * V) := map (fun k => (b_field b k, b_value b k)) (zseq s n).

Lemma tab_length b s n : length (tab b s n) = Z.to_nat n.
Proof. unfold tab. now rewrite map_length, length_zseq. Qed.

Lemma search_tab b c v : forall n k, 0 <= k -> k + Z.of_nat n <= 64 ->
  exists j, search n k b c = Some j /\ k <= j <= k + Z.of_nat n /\
    map (fun i => (upd (b_field b) j c i, upd (b_value b) j v i)) (zseq k (if j =? k + Z.of_nat n then Z.of_nat n + 1 else Z.of_nat n))
    = assoc_set c v (tab b k (Z.of_nat n)).
Proof.
  induction n as [|n IH]; intros k Hk Hn.
  - exists k. cbn [search]. split; auto. split; [lia|]. change (Z.of_nat 0) with 0. rewrite Z.add_0_r, Z.eqb_refl.
    unfold tab. rewrite zseq_cons by lia. rewrite !zseq_nil by lia. cbn. unfold upd. now rewrite Z.eqb_refl.
  - cbn [search]. unfold in64. destruct (Z.leb_spec 0 k); [|lia]. destruct (Z.ltb_spec k 64); [|lia]. cbn [andb].
    unfold tab. rewrite (zseq_cons k (Z.of_nat (S n))) by lia. cbn [map assoc_set].
    replace (Z.of_nat (S n) - 1) with (Z.of_nat n) by lia.
    destruct (Z.eqb_spec (b_field b k) c) as [E|E].
    + exists k. split; auto. split; [lia|]. destruct (Z.eqb_spec k (k + Z.of_nat (S n))); [lia|].
      rewrite zseq_cons by lia. replace (Z.of_nat (S n) - 1) with (Z.of_nat n) by lia. cbn [map].
      unfold upd at 1 2. rewrite Z.eqb_refl. f_equal. apply map_ext_in. intros i Hi. apply in_zseq in Hi.
      unfold upd. destruct (Z.eqb_spec i k); [lia|]. reflexivity.
    + destruct (IH (k + 1) ltac:(lia) ltac:(lia)) as [j [S1 [R1 T1]]]. exists j. split; auto. split; [lia|].
      replace (k + 1 + Z.of_nat n) with (k + Z.of_nat (S n)) in * by lia.
      set (q := if j =? k + Z.of_nat (S n) then Z.of_nat n + 1 else Z.of_nat n) in *.
      assert (Eq : (if j =? k + Z.of_nat (S n) then Z.of_nat (S n) + 1 else Z.of_nat (S n)) = q + 1)
        by (unfold q; destruct (Z.eqb_spec j (k + Z.of_nat (S n))); lia).
      rewrite Eq. rewrite zseq_cons by (unfold q; destruct (Z.eqb_spec j (k + Z.of_nat (S n))); lia).
      replace (q + 1 - 1) with q by lia. cbn [map]. unfold tab in T1. rewrite T1. f_equal.
      unfold upd. destruct (Z.eqb_spec k j); [lia|]. reflexivity.
Qed.

(** A table that holds the list [l]. *)
Definition holds (m : fmem V) (p : option Z) (l : list (Z * V)) : Prop :=
  exists b, deref m p = Some b /\ 0 <= b_count b /\ tab b 0 (b_count b) = l.

Lemma set_entry_ok m p l c v : holds m p l -> (length (assoc_set c v l) <= 64)%nat ->
  exists b, IGAFormBCSetEntry m p c v = ROk (store m p b) /\ 0 <= b_count b /\ tab b 0 (b_count b) = assoc_set c v l.
Proof.
  intros [b [D [C T]]] Len. unfold IGAFormBCSetEntry. rewrite D.
  assert (L0 : Z.to_nat (b_count b) = length l) by (rewrite <- T, tab_length; reflexivity).
  assert (L1 : (length l <= length (assoc_set c v l))%nat).
  { clear. induction l as [|[x w] l IH]; cbn [assoc_set]; [cbn; lia|]. destruct (x =? c); cbn [length]; lia. }
  destruct (search_tab b c v (Z.to_nat (b_count b)) 0 ltac:(lia) ltac:(lia)) as [j [S1 [R1 T1]]].
  rewrite Z2Nat.id in * by lia. rewrite Z.add_0_l in *. rewrite S1. rewrite T in T1.
  set (cnt := if j =? b_count b then b_count b + 1 else b_count b) in *.
  assert (Hc : 0 <= cnt) by (unfold cnt; destruct (j =? b_count b); lia).
  assert (Lc : Z.to_nat cnt = length (assoc_set c v l)) by (rewrite <- T1, map_length, length_zseq; reflexivity).
  assert (I : in64 j = true).
  { unfold in64. unfold cnt in Lc. destruct (Z.eqb_spec j (b_count b)); lia. }
  rewrite I. eexists. split; [reflexivity|]. cbn [b_count]. split; [exact Hc|]. exact T1.
Qed.

Definition vid (a s : Z) : Z := 2 * (2 * a + s).
Definition lid (a s : Z) : Z := 2 * (2 * a + s) + 1.

Record Inv (m : fmem V) (f : form V) : Prop := mk_Inv {
  i_alive : m_alive m = true;
  i_dof : m_dof m = fm_dof f;
  i_vp : forall a s, face a s -> m_value m a s = Some (vid a s);
  i_lp : forall a s, face a s -> m_load m a s = Some (lid a s);
  i_v : forall a s, face a s -> holds m (m_value m a s) (fm_value f a s);
  i_l : forall a s, face a s -> holds m (m_load m a s) (fm_load f a s);
  i_vis : forall a s, m_visit m a s = fm_visit f a s;
  i_blk : forall z, m_blk m z <> None <-> 0 <= z < 12 }.

Lemma face_cases a s : face a s -> In (a, s) faces6.
Proof.
  intros [Ha Hs]. assert (a = 0 \/ a = 1 \/ a = 2) as [-> | [-> | -> ]] by lia;
    assert (s = 0 \/ s = 1) as [-> | -> ] by lia; cbn; tauto.
Qed.

Lemma create_inv : Inv (IGAFormCreate zero) new_form.
Proof.
  constructor; try reflexivity.
  - intros a s F. apply face_cases in F. repeat destruct F as [[= <- <-]|F]; try reflexivity. destruct F.
  - intros a s F. apply face_cases in F. repeat destruct F as [[= <- <-]|F]; try reflexivity. destruct F.
  - intros a s F. apply face_cases in F.
    repeat destruct F as [[= <- <-]|F]; try (eexists; split; [reflexivity|]; split; [cbn; lia|reflexivity]). destruct F.
  - intros a s F. apply face_cases in F.
    repeat destruct F as [[= <- <-]|F]; try (eexists; split; [reflexivity|]; split; [cbn; lia|reflexivity]). destruct F.
  - intros z. unfold IGAFormCreate, faces6. cbn [fold_left create_face calloc m_next m_blk m_alive m_dof m_value m_load m_visit].
    repeat match goal with |- context [if z =? ?k then _ else _] => destruct (Z.eqb_spec z k) end;
      split; intros Hz; try discriminate; try lia; try congruence.
Qed.

Lemma vid_inj a s a' s' : face a s -> face a' s' -> vid a s = vid a' s' -> (a, s) = (a', s').
Proof. unfold vid, face. intros [] [] E. f_equal; lia. Qed.
Lemma lid_inj a s a' s' : face a s -> face a' s' -> lid a s = lid a' s' -> (a, s) = (a', s').
Proof. unfold lid, face. intros [] [] E. f_equal; lia. Qed.
Lemma vid_lid a s a' s' : vid a s <> lid a' s'.
Proof. unfold vid, lid. lia. Qed.

Lemma deref_store_same (m : fmem V) i b : deref (store m (Some i) b) (Some i) = Some b.
Proof. cbn. now rewrite Z.eqb_refl. Qed.
Lemma holds_store_other m i b j l : j <> i -> holds m (Some j) l -> holds (store m (Some i) b) (Some j) l.
Proof.
  intros N [b' [D R]]. exists b'. split; auto. cbn. destruct (Z.eqb_spec j i); [contradiction|]. exact D.
Qed.

(** The table of a face replaced by another one. *)
Lemma inv_store_v m f a s b l : Inv m f -> face a s -> 0 <= b_count b -> tab b 0 (b_count b) = l ->
  Inv (store m (m_value m a s) b) (mk_form (fm_dof f) (set2 (fm_value f) a s l) (fm_load f) (fm_visit f)).
Proof.
  intros H F C T. rewrite (i_vp m f H a s F).
  constructor; cbn [fm_dof fm_value fm_load fm_visit store m_alive m_dof m_visit m_value m_load m_blk]; try apply H.
  - intros a' s' F'. rewrite (i_vp m f H a' s' F'). destruct (pair_dec a s a' s') as [E|N].
    + injection E as -> ->. rewrite set2_same. exists b. split; [apply deref_store_same|]. auto.
    + rewrite set2_other by exact N. apply holds_store_other.
      * intros E. apply N. exact (vid_inj _ _ _ _ F' F E).
      * rewrite <- (i_vp m f H a' s' F'). apply (i_v m f H a' s' F').
  - intros a' s' F'. rewrite (i_lp m f H a' s' F'). apply holds_store_other.
    + intros E. exact (vid_lid _ _ _ _ (eq_sym E)).
    + rewrite <- (i_lp m f H a' s' F'). apply (i_l m f H a' s' F').
  - intros z. destruct (Z.eqb_spec z (vid a s)) as [->|N]; [|apply (i_blk m f H)]. split; [|discriminate].
    intros _. unfold vid, face in *. lia.
Qed.
Lemma inv_store_l m f a s b l : Inv m f -> face a s -> 0 <= b_count b -> tab b 0 (b_count b) = l ->
  Inv (store m (m_load m a s) b) (mk_form (fm_dof f) (fm_value f) (set2 (fm_load f) a s l) (fm_visit f)).
Proof.
  intros H F C T. rewrite (i_lp m f H a s F).
  constructor; cbn [fm_dof fm_value fm_load fm_visit store m_alive m_dof m_visit m_value m_load m_blk]; try apply H.
  - intros a' s' F'. rewrite (i_vp m f H a' s' F'). apply holds_store_other.
    + apply vid_lid.
    + rewrite <- (i_vp m f H a' s' F'). apply (i_v m f H a' s' F').
  - intros a' s' F'. rewrite (i_lp m f H a' s' F'). destruct (pair_dec a s a' s') as [E|N].
    + injection E as -> ->. rewrite set2_same. exists b. split; [apply deref_store_same|]. auto.
    + rewrite set2_other by exact N. apply holds_store_other.
      * intros E. apply N. exact (lid_inj _ _ _ _ F' F E).
      * rewrite <- (i_lp m f H a' s' F'). apply (i_l m f H a' s' F').
  - intros z. destruct (Z.eqb_spec z (lid a s)) as [->|N]; [|apply (i_blk m f H)]. split; [|discriminate].
    intros _. unfold lid, face in *. lia.
Qed.
Lemma inv_dof m f c : Inv m f -> Inv (update_dof V m c) (mk_form (Z.max (fm_dof f) (c + 1)) (fm_value f) (fm_load f) (fm_visit f)).
Proof.
  intros H. constructor; cbn; try apply H; auto. now rewrite (i_dof m f H).
Qed.
Lemma inv_visit m f a s b : Inv m f -> Inv (set_visit V m a s b) (mk_form (fm_dof f) (fm_value f) (fm_load f) (set2 (fm_visit f) a s b)).
Proof.
  intros H. constructor; cbn; try apply H; auto. intros a' s'. unfold set2. now rewrite (i_vis m f H).
Qed.

Lemma fstep_bad dim dof op (m : fmem V) : m_alive m = true -> ~ legal dim dof op -> fstep dim dof op m = RErr m.
Proof.
  intros A H. unfold fstep. rewrite A. cbn [negb]. destruct op; unfold legal, check_arg in *;
    repeat match goal with |- context [if ?b then _ else _] => destruct b eqn:? end; try reflexivity; exfalso; apply H; lia.
Qed.
Lemma fstep_good dim dof op (m : fmem V) : m_alive m = true -> legal dim dof op -> fstep dim dof op m =
  match op with
  | SetValue a s c v => IGAFormBCSetEntry (update_dof V m c) (m_value m a s) c v
  | SetLoad a s c v => IGAFormBCSetEntry (update_dof V m c) (m_load m a s) c v
  | SetForm a s b => ROk (set_visit V m a s b)
  | Clear a s => match clear_table m (m_value m a s) with
           | ROk m1 => match clear_table m1 (m_load m1 a s) with
                       | ROk m2 => ROk (set_visit V m2 a s false)
                       | r => r
                       end
           | r => r
           end
  end.
Proof.
  intros A H. unfold fstep. rewrite A. cbn [negb]. destruct op; unfold legal, check_arg in *;
    repeat match goal with |- context [if ?b then _ else _] => destruct b eqn:? end; try reflexivity; exfalso; lia.
Qed.

Lemma clear_ok m p l : holds m p l -> exists b, clear_table m p = ROk (store m p b) /\ b_count b = 0.
Proof. intros [b [D _]]. unfold clear_table. rewrite D. eexists. split; reflexivity. Qed.

Lemma fstep_ok (calls : list (call V)) dim dof op m : Inv m (bc_run calls) -> legal dim dof op ->
  exists m', fstep dim dof op m = ROk m' /\ Inv m' (bc_run (calls ++ [(dim, dof, op)])).
Proof.
  intros H L. rewrite (fstep_good dim dof op m (i_alive _ _ H) L).
  assert (LenV : forall a s, (length (fm_value (bc_run (calls ++ [(dim, dof, op)])) a s) <= 64)%nat).
  { intros a s. destruct (run_tables V (calls ++ [(dim, dof, op)]) a s) as [[N B] _].
    change 64%nat with (Z.to_nat 64). apply keys_bound; auto. intros k Hk. apply B in Hk. lia. }
  assert (LenL : forall a s, (length (fm_load (bc_run (calls ++ [(dim, dof, op)])) a s) <= 64)%nat).
  { intros a s. destruct (run_tables V (calls ++ [(dim, dof, op)]) a s) as [_ [N B]].
    change 64%nat with (Z.to_nat 64). apply keys_bound; auto. intros k Hk. apply B in Hk. lia. }
  rewrite run_snoc in *. set (f := bc_run calls) in *. rewrite (step_good _ _ _ _ _ L) in *.
  destruct op as [a s c v|a s c v|a s b|a s]; cbn [fm_value fm_load] in LenV, LenL.
  - assert (F : face a s) by (unfold face; cbn in L; lia). pose proof (inv_dof m f c H) as Hd.
    specialize (LenV a s). rewrite set2_same in LenV.
    destruct (set_entry_ok (update_dof V m c) (m_value m a s) (fm_value f a s) c v) as [b [E [C T]]].
    { exact (i_v _ _ Hd a s F). } { exact LenV. }
    rewrite E. eexists. split; [reflexivity|]. exact (inv_store_v _ _ a s b _ Hd F C T).
  - assert (F : face a s) by (unfold face; cbn in L; lia). pose proof (inv_dof m f c H) as Hd.
    specialize (LenL a s). rewrite set2_same in LenL.
    destruct (set_entry_ok (update_dof V m c) (m_load m a s) (fm_load f a s) c v) as [b [E [C T]]].
    { exact (i_l _ _ Hd a s F). } { exact LenL. }
    rewrite E. eexists. split; [reflexivity|]. exact (inv_store_l _ _ a s b _ Hd F C T).
  - eexists. split; [reflexivity|]. now apply inv_visit.
  - assert (F : face a s) by (unfold face; cbn in L; lia).
    destruct (clear_ok m _ _ (i_v _ _ H a s F)) as [b [E C]]. rewrite E.
    assert (H1 : Inv (store m (m_value m a s) b) (mk_form (fm_dof f) (set2 (fm_value f) a s []) (fm_load f) (fm_visit f))).
    { apply inv_store_v; auto; [lia|]. rewrite C. reflexivity. }
    destruct (clear_ok _ _ _ (i_l _ _ H1 a s F)) as [b2 [E2 C2]]. rewrite E2. eexists. split; [reflexivity|].
    apply inv_visit with (f := mk_form (fm_dof f) (set2 (fm_value f) a s []) (set2 (fm_load f) a s []) (fm_visit f)).
    apply (inv_store_l _ _ a s b2 [] H1 F); [lia|]. rewrite C2. reflexivity.
Qed.

Lemma frun_snoc calls dim dof op : frun zero (calls ++ [(dim, dof, op)]) =
  match frun zero calls with
  | None => None
  | Some m => match fstep dim dof op m with ROk m' | RErr m' => Some m' | RFault => None end
  end.
Proof. unfold frun. rewrite fold_left_app. reflexivity. Qed.

Lemma frun_inv calls : exists m, frun zero calls = Some m /\ Inv m (bc_run calls).
Proof.
  induction calls as [|[[dim dof] op] calls [m [E H]]] using rev_ind.
  - exists (IGAFormCreate zero). split; [reflexivity|]. exact create_inv.
  - rewrite frun_snoc, E. destruct (legal_dec V dim dof op) as [L|L].
    + destruct (fstep_ok calls dim dof op m H L) as [m' [E' H']]. exists m'. rewrite E'. auto.
    + exists m. rewrite (fstep_bad _ _ _ _ (i_alive _ _ H) L). split; auto.
      rewrite run_snoc, (step_bad _ _ _ _ _ L). exact H.
Qed.

Lemma holds_entries m p l : holds m p l -> entries m p = l.
Proof. intros [b [D [_ T]]]. unfold entries. rewrite D. exact T. Qed.

(** * Destroying *)
Definition pids (l : list (Z * Z)) : list Z := flat_map (fun p => [vid (fst p) (snd p); lid (fst p) (snd p)]) l.

Lemma free_faces l : forall m, NoDup (pids l) ->
  (forall a s, In (a, s) l -> m_value m a s = Some (vid a s) /\ m_load m a s = Some (lid a s)) ->
  (forall z, In z (pids l) -> m_blk m z <> None) ->
  exists m', fold_left (free_face V) l (ROk m) = ROk m' /\
    forall z, m_blk m' z = if in_dec Z.eq_dec z (pids l) then None else m_blk m z.
Proof.
  induction l as [|[a s] l IH]; intros m ND P B.
  - exists m. split; [reflexivity|]. intros z. reflexivity.
  - change (pids ((a, s) :: l)) with (vid a s :: lid a s :: pids l) in *. inversion_clear ND as [|? ? N1 ND1]. inversion_clear ND1 as [|? ? N2 ND2].
    destruct (P a s (or_introl eq_refl)) as [Ev El]. cbn [fold_left]. unfold free_face at 2. rewrite Ev. unfold free_table at 1.
    destruct (m_blk m (vid a s)) as [b|] eqn:Bv; [|exfalso; apply (B (vid a s)); [now left|exact Bv]].
    cbn [m_load]. rewrite El. unfold free_table. cbn [m_blk].
    destruct (Z.eqb_spec (lid a s) (vid a s)) as [Eq|_]; [exfalso; exact (vid_lid _ _ _ _ (eq_sym Eq))|].
    destruct (m_blk m (lid a s)) as [b'|] eqn:Bl; [|exfalso; apply (B (lid a s)); [right; now left|exact Bl]].
    match goal with |- context [fold_left _ l (ROk ?m2)] => destruct (IH m2 ND2) as [m' [E D]] end.
    + intros a' s' I. cbn. apply P. now right.
    + intros z I. cbn [m_blk]. destruct (Z.eqb_spec z (lid a s)) as [->|]; [contradiction|].
      destruct (Z.eqb_spec z (vid a s)) as [->|]; [exfalso; apply N1; now right|]. apply B. right; now right.
    + exists m'. split; [exact E|]. intros z. rewrite D. cbn [m_blk].
      destruct (in_dec Z.eq_dec z (pids l)) as [I|I]; destruct (in_dec Z.eq_dec z (vid a s :: lid a s :: pids l)) as [I'|I']; auto.
      * exfalso. apply I'. right; now right.
      * destruct (Z.eqb_spec z (lid a s)); [reflexivity|]. destruct (Z.eqb_spec z (vid a s)); [reflexivity|].
        destruct I' as [E1|[E1|I']]; [congruence|congruence|contradiction].
      * destruct (Z.eqb_spec z (lid a s)) as [->|]; [exfalso; apply I'; right; now left|].
        destruct (Z.eqb_spec z (vid a s)) as [->|]; [exfalso; apply I'; now left|]. reflexivity.
Qed.

Lemma destroy_inv m f : Inv m f -> exists m', IGAFormDestroy m = ROk m' /\ m_alive m' = false /\ forall z, m_blk m' z = None.
Proof.
  intros H. unfold IGAFormDestroy. rewrite (i_alive _ _ H). cbn [negb].
  assert (PI : forall z, In z (pids faces6) <-> 0 <= z < 12).
  { intros z. cbn. unfold vid, lid. split; intros; lia. }
  destruct (free_faces faces6 m) as [m' [E D]].
  - assert (Ep : pids faces6 = zseq 0 12) by reflexivity. rewrite Ep. apply NoDup_zseq.
  - intros a s I. assert (F : face a s).
    { unfold face. cbn in I. repeat destruct I as [[= <- <-]|I]; try lia. }
    split; [apply (i_vp _ _ H)|apply (i_lp _ _ H)]; exact F.
  - intros z I. apply (i_blk _ _ H). now apply PI.
  - rewrite E. eexists. split; [reflexivity|]. cbn [m_alive m_blk]. split; auto. intros z. rewrite D.
    destruct (in_dec Z.eq_dec z (pids faces6)) as [I|I]; auto.
    destruct (m_blk m z) eqn:B; auto. exfalso. apply I, PI. apply (i_blk _ _ H). congruence.
Qed.

(** * Reset *)
Lemma align_bounds x a : 0 < a -> x <= align_up x a < x + a.
Proof.
  intros Ha. unfold align_up. pose proof (Z.div_mod (x + a - 1) a ltac:(lia)). pose proof (Z.mod_pos_bound (x + a - 1) a Ha).
  rewrite (Z.mul_comm _ a). lia.
Qed.

Lemma overrun p : sane p -> sizeof_form p < off_value p + 3 * 2 * sizeof_bc p.
Proof.
  intros [Hi [Hs [Ha [Hp Hb]]]].
  assert (B1 : sizeof_form p < off_visit p + 3 * 2 * sz_bool p + sz_ptr p)
    by (unfold sizeof_form; apply align_bounds; lia).
  assert (B2 : off_visit p < off_load p + 3 * 2 * sz_ptr p + sz_bool p)
    by (unfold off_visit; apply align_bounds; lia).
  assert (B3 : 64 * sz_int p + 64 * sz_scalar p <= sizeof_bc p).
  { unfold sizeof_bc. pose proof (align_bounds (sz_int p + 64 * sz_int p) (al_scalar p) ltac:(lia)) as B3.
    set (x := align_up (sz_int p + 64 * sz_int p) (al_scalar p)) in *.
    pose proof (align_bounds (x + 64 * sz_scalar p) (Z.max (sz_int p) (al_scalar p)) ltac:(lia)) as B4.
    set (y := align_up _ _) in *. clearbody x y. clear -B3 B4 Hi. lia. }
  unfold off_load in B2. clear -Hi Hs Hp Hb B1 B2 B3.
  generalize dependent (sizeof_bc p). generalize dependent (sizeof_form p). generalize dependent (off_visit p).
  generalize dependent (off_value p). intros. lia.
Qed.
End P.
