(** Proofs about the assembly drivers: the specification's own calculus, then the kernels. *)
From Coq Require Import ZArith List Bool Lia Reals Lra Permutation FunctionalExtensionality.
From Coq Require Import ZifyBool ZifyNat.
From Verif Require Import Prelude AxisModel AxisSpec AxisInitModel PartModel PartSpec PartProofs SetupModel SetupProofs SetupProps
  Box GridModel GridSpec GridProofs GridProofs2 GridSetup GridProps ElemModel ElemSpec ElemProofs AsmProofs ElemProps
  BCModel BCSpec BCProofs BCProofs2 BCProps DrvModel DrvSpec DrvProofs.
Import ListNotations.
Open Scope Z_scope.

Lemma dpl_ext f g x l : (forall s, f s = g s) -> derivable_pt_lim g x l -> derivable_pt_lim f x l.
Proof. intros H Hg eps He. destruct (Hg eps He) as (del & Hd). exists del. intros h H1 H2. rewrite !H. apply Hd; auto. Qed.
Lemma dpl_rsum A (f : A -> R -> R) (df : A -> R) x l : (forall a, In a l -> derivable_pt_lim (f a) x (df a)) ->
  derivable_pt_lim (fun s => rsum (fun a => f a s) l) x (rsum df l).
Proof.
  induction l as [|a l IH]; intros H.
  - apply (dpl_ext _ (fun _ => 0%R)); [reflexivity|]. apply derivable_pt_lim_const.
  - rewrite rsum_cons. apply (dpl_ext _ (fun s => f a s + rsum (fun a => f a s) l)%R); [intros; apply rsum_cons|].
    apply (derivable_pt_lim_plus (f a)); [apply H; left; auto|]. apply IH. intros; apply H; right; auto.
Qed.
Lemma dpl_scal f x l k : derivable_pt_lim f x l -> derivable_pt_lim (fun s => f s * k)%R x (l * k)%R.
Proof.
  intros H. replace (l * k)%R with (l * k + f x * 0)%R by lra. apply (derivable_pt_lim_mult f (fun _ => k)); auto. apply derivable_pt_lim_const.
Qed.
Lemma dpl_if (b : bool) f x l : derivable_pt_lim f x l -> derivable_pt_lim (fun s => if b then f s else 0%R) x (if b then l else 0%R).
Proof. intros H. destruct b; auto. apply derivable_pt_lim_const. Qed.
Lemma dpl_eq f x l l' : l = l' -> derivable_pt_lim f x l' -> derivable_pt_lim f x l.
Proof. intros ->. auto. Qed.
Lemma dpl_affine u v : derivable_pt_lim (fun s => u + s * v)%R 0 v.
Proof.
  apply (dpl_eq _ _ _ (0 + (1 * v + 0 * 0))%R); [lra|]. apply (derivable_pt_lim_plus (fun _ => u)); [apply derivable_pt_lim_const|].
  apply (derivable_pt_lim_mult (fun s => s) (fun _ => v)); [apply derivable_pt_lim_id|apply derivable_pt_lim_const].
Qed.

Lemma length_box3 : forall s w, (forall d, 0 <= d < 3 -> 0 <= w d) -> length (box s w) = Z.to_nat (vol w).
Proof.
  intros s w H. set (w' := fun d => if (0 <=? d) && (d <? 3) then w d else 1).
  change (box s w) with (box s w'). change (vol w) with (vol w'). apply length_box.
  intros i. unfold w'. destruct ((0 <=? i) && (i <? 3)) eqn:E; [apply H; lia|lia].
Qed.

Section Calculus.
  Variables dim dof : Z.
  Variables N nen nel : Z -> Z.
  Variable first : triple -> Z -> Z.
  Variable visit : Z -> Z -> bool.
  Variable npts : triple -> form_visit -> Z.
  Variable JW : triple -> form_visit -> Z -> R.
  Variable presc : triple -> Z -> option R.
  Variable loads : triple -> triple -> Z -> R.
  Hypothesis Hdof : 1 <= dof.
  Hypothesis Hnen : forall d, 0 <= d < 3 -> 1 <= nen d.
  Hypothesis HN : forall d, 0 <= d < 3 -> 1 <= N d.
  Let n := vol nen * dof.
  Local Notation node := (elem_node N first).
  Local Notation earr := (earr dof N nen first).
  Local Notation scatter := (scatter N nen nel first).
  Local Notation integral := (integral dim nel visit npts JW).
  Local Notation held := (held presc).
  Local Notation released := (released presc).

  (** Arrays. *)
  Lemma earr_at x e a c : in_box zero3 nen a -> 0 <= c < dof -> earr e x (lin nen a * dof + c) = x (node e a) c.
  Proof.
    intros Ha Hc. unfold DrvSpec.earr, elem_copy.
    assert (L : 0 <= lin nen a < vol nen).
    { destruct a as [[i j] k]. destruct Ha as (A & B & C). unfold zero3 in *. apply lin_range; lia. }
    assert (E0 : 0 <= lin nen a * dof) by (apply Z.mul_nonneg_nonneg; lia).
    replace (lin nen a * dof + c <? 0) with false by lia.
    replace (Z.to_nat (lin nen a * dof + c)) with (Z.to_nat (lin nen a) * Z.to_nat dof + Z.to_nat c)%nat by lia.
    rewrite nth_flat_map_const with (da := (0,0,0)).
    - assert (E : nth (Z.to_nat (lin nen a)) (box zero3 nen) (0,0,0) = a).
      { destruct a as [[i j] k]. destruct Ha as (A & B & C). unfold zero3 in *. pose proof (nth_box zero3 nen i j k (0,0,0)) as Q.
        unfold zero3 in Q. rewrite Q by lia. reflexivity. }
      rewrite E. rewrite (nth_indep _ 0%R (x (node e a) 0)) by (rewrite map_length, length_zseq; lia).
      rewrite map_nth. rewrite nth_zseq by lia. f_equal. lia.
    - intros t _. rewrite map_length, length_zseq. reflexivity.
    - lia.
    - rewrite length_box3; [lia|]. intros d Hd. pose proof (Hnen d Hd). lia.
  Qed.
  Lemma index_dof i : 0 <= i < n -> exists a c, in_box zero3 nen a /\ 0 <= c < dof /\ i = lin nen a * dof + c.
  Proof.
    intros Hi. exists (unlin nen (i / dof)), (i mod dof).
    pose proof (Hnen 0 ltac:(lia)) as P0. pose proof (Hnen 1 ltac:(lia)) as P1. pose proof (Hnen 2 ltac:(lia)) as P2.
    assert (Hq : 0 <= i / dof < vol nen). { unfold n in Hi. clear - Hi Hdof. split; [apply Z.div_pos; lia|apply Z.div_lt_upper_bound; lia]. }
    assert (Ek : i = i / dof * dof + i mod dof) by (clear - Hdof; rewrite Z.mul_comm; apply Z.div_mod; lia).
    pose proof (Z.mod_pos_bound i dof ltac:(lia)) as M.
    destruct (lin_unlin nen (i/dof) ltac:(lia) ltac:(lia) ltac:(lia) Hq) as (L1 & L2).
    split; [exact L2|]. split; [exact M|]. rewrite L1. exact Ek.
  Qed.
  Lemma index_lt a c : in_box zero3 nen a -> 0 <= c < dof -> 0 <= lin nen a * dof + c < n.
  Proof. intros Ha Hc. 
    destruct a as [[i j] k]. destruct Ha as (A & B & C). unfold zero3 in *.
    pose proof (lin_range nen i j k ltac:(lia) ltac:(lia) ltac:(lia)) as L. unfold n. clear - L Hc Hdof. nia.
  Qed.
  Lemma earr_out x e i : i < 0 \/ n <= i -> earr e x i = 0%R.
  Proof.
    intros H. unfold DrvSpec.earr. destruct (i <? 0) eqn:E; auto. apply nth_overflow. unfold elem_copy.
    assert (K : length (flat_map (fun a => map (x (node e a)) (zseq 0 dof)) (box zero3 nen)) = (length (box zero3 nen) * Z.to_nat dof)%nat).
    { induction (box zero3 nen) as [|t l IH]; cbn [flat_map]; auto. rewrite app_length, IH, map_length, length_zseq. cbn [length]. lia. }
    rewrite K, length_box3; [unfold n in H; lia|]. intros d Hd. pose proof (Hnen d Hd). lia.
  Qed.
  (** Equality of arrays: entry by entry inside, zero outside. *)
  Lemma earr_ext (A : Z -> R) e x : (forall a c, in_box zero3 nen a -> 0 <= c < dof -> A (lin nen a * dof + c) = x (node e a) c) ->
    (forall i, i < 0 \/ n <= i -> A i = 0%R) -> A = earr e x.
  Proof.
    intros H1 H2. apply functional_extensionality. intros i. destruct (Z_lt_le_dec i 0); [rewrite earr_out, H2 by auto; auto|].
    destruct (Z_lt_le_dec i n); [|rewrite earr_out, H2 by auto; auto].
    destruct (index_dof i ltac:(lia)) as (a & c & Ha & Hc & ->). rewrite earr_at, H1 by auto. reflexivity.
  Qed.
  Lemma earr_along x s y e : earr e (nalong x s y) = along (earr e x) s (earr e y).
  Proof.
    symmetry. apply earr_ext.
    - intros a c Ha Hc. unfold along, nalong. rewrite !earr_at by auto. reflexivity.
    - intros i Hi. unfold along. rewrite !earr_out by auto. lra.
  Qed.
  Lemma held_along x s y : held (nalong x s y) = nalong (held x) s (released y).
  Proof.
    apply functional_extensionality. intros t. apply functional_extensionality. intros c. unfold DrvSpec.held, DrvSpec.released, nalong.
    destruct (presc t c); lra.
  Qed.
  Lemma released_along x s y : released (nalong x s y) = nalong (released x) s (released y).
  Proof.
    apply functional_extensionality. intros t. apply functional_extensionality. intros c. unfold DrvSpec.released, nalong.
    destruct (presc t c); lra.
  Qed.

  (** Sums. *)
  Lemma scatter_ext g h t : (forall e a, In e (box zero3 nel) -> in_box zero3 nen a -> node e a = t -> g e a = h e a) -> scatter g t = scatter h t.
  Proof.
    intros H. unfold DrvSpec.scatter. apply rsum_ext. intros e He. apply rsum_ext. intros a Ha.
    destruct (triple_eqb (node e a) t) eqn:E; auto. apply H; auto; [apply In_box; auto|apply triple_eqb_eq; auto].
  Qed.
  Lemma scatter_minus g h t : (scatter g t - scatter h t = scatter (fun e a => g e a - h e a) t)%R.
  Proof.
    unfold DrvSpec.scatter. rewrite rsum_minus. apply rsum_ext. intros e _. rewrite rsum_minus. apply rsum_ext. intros a _.
    destruct (triple_eqb (node e a) t); lra.
  Qed.
  Lemma scatter_plus g h t : (scatter g t + scatter h t = scatter (fun e a => g e a + h e a) t)%R.
  Proof.
    unfold DrvSpec.scatter. rewrite <- rsum_plus. apply rsum_ext. intros e _. rewrite <- rsum_plus. apply rsum_ext. intros a _.
    destruct (triple_eqb (node e a) t); lra.
  Qed.
  Lemma scatter_const k t : scatter (fun _ _ => k) t = (multiplicity N nen nel first t * k)%R.
  Proof.
    unfold DrvSpec.multiplicity, DrvSpec.scatter. rewrite Rmult_comm, <- rsum_scal. apply rsum_ext. intros e _.
    rewrite <- rsum_scal. apply rsum_ext. intros a _. destruct (triple_eqb (node e a) t); lra.
  Qed.
  Lemma serial_vector_scatter Fe X t c : serial_vector N nen first dof nel Fe X t c =
    scatter (fun e a => Fe e (map (elem_copy N nen first dof e) X) (lin nen a * dof + c)) t.
  Proof. reflexivity. Qed.
  Lemma serial_matrix_scatter Ke X t c u d : serial_matrix N nen first dof nel Ke X t c u d =
    scatter2 N nen nel first (fun e a b => Ke e (map (elem_copy N nen first dof e) X) ((lin nen a * dof + c) * (vol nen * dof) + (lin nen b * dof + d))) t u.
  Proof.
    unfold serial_matrix, scatter2, DrvSpec.scatter. apply rsum_ext. intros e _. apply rsum_ext. intros a _.
    destruct (triple_eqb (node e a) t); cbn [andb]; auto. apply rsum_zero. auto.
  Qed.
  Lemma plain_matrix_serial g t c u d : plain_matrix dim dof N nen nel first visit npts JW g t c u d =
    serial_matrix N nen first dof nel (fun e _ i => integral e (fun f q => g e f q i)) [] t c u d.
  Proof. rewrite serial_matrix_scatter. reflexivity. Qed.

  Lemma node_row_ext M M' x x' t c : (forall u d, in_box zero3 N u -> 0 <= d < dof -> (M t c u d * x u d = M' t c u d * x' u d)%R) ->
    node_row N dof M x t c = node_row N dof M' x' t c.
  Proof.
    intros H. unfold node_row. apply rsum_ext. intros u Hu. apply rsum_ext. intros d Hd. apply in_zseq in Hd. apply H; [apply In_box; auto|lia].
  Qed.
  (** Row of the plain matrix. *)
  Lemma plain_row g x t c : 0 <= c < dof ->
    node_row N dof (plain_matrix dim dof N nen nel first visit npts JW g) x t c =
    scatter (fun e a => rsum (fun j => integral e (fun f q => g e f q ((lin nen a * dof + c) * n + j)%Z) * earr e x j)%R (zseq 0 n)) t.
  Proof.
    intros Hc. rewrite (node_row_ext _ (serial_matrix N nen first dof nel (fun e _ i => integral e (fun f q => g e f q i)) []) x x).
    2:{ intros u d _ _. rewrite plain_matrix_serial. reflexivity. }
    rewrite (global_row N nen first dof Hdof Hnen nel HN (fun e i => integral e (fun f q => g e f q i)) x t c Hc).
    apply scatter_ext. intros e a _ Ha _. unfold mat_row. apply rsum_ext. intros j Hj. apply in_zseq in Hj. f_equal.
    destruct (index_dof j ltac:(unfold n; lia)) as (b & d & Hb & Hd & ->). rewrite earr_at by auto. apply ecopy_at; auto.
  Qed.

  (** Identity rows. *)
  Lemma identity_row k y t c : in_box zero3 N t -> 0 <= c < dof ->
    node_row N dof (fun t c u d => if triple_eqb t u && (c =? d) then k else 0%R) y t c = (k * y t c)%R.
  Proof.
    intros Ht Hc. unfold node_row. rewrite (rsum_single _ _ _ t); [|apply NoDup_box|apply In_box; auto|].
    - rewrite (proj2 (triple_eqb_eq t t) eq_refl). cbn [andb]. rewrite (rsum_single _ _ _ c); [|apply NoDup_zseq|apply in_zseq; lia|].
      + rewrite Z.eqb_refl. reflexivity.
      + intros d _ Hd. replace (c =? d) with false by lia. lra.
    - intros u _ Hu. apply rsum_zero. intros d _. destruct (triple_eqb t u) eqn:E; [apply triple_eqb_eq in E; congruence|]. cbn [andb]. lra.
  Qed.

  (** Rows of the Jacobian. *)
  Lemma jacobian_row g y t c : in_box zero3 N t -> 0 <= c < dof ->
    node_row N dof (jacobian dim dof N nen nel first visit npts JW presc g) y t c =
    match presc t c with
    | Some _ => (multiplicity N nen nel first t * y t c)%R
    | None => node_row N dof (plain_matrix dim dof N nen nel first visit npts JW g) (released y) t c
    end.
  Proof.
    intros Ht Hc. destruct (presc t c) as [v|] eqn:E.
    - rewrite <- (identity_row (multiplicity N nen nel first t) y t c Ht Hc). apply node_row_ext. intros u d _ _. unfold jacobian. rewrite E. reflexivity.
    - apply node_row_ext. intros u d _ _. unfold jacobian, DrvSpec.released. rewrite E. destruct (presc u d) eqn:E'; auto.
      destruct (triple_eqb t u && (c =? d)) eqn:Q; [|lra]. apply andb_prop in Q. destruct Q as (Q1 & Q2). apply triple_eqb_eq in Q1.
      assert (c = d) by lia. congruence.
  Qed.

  (** The residual's derivative. *)
  Lemma residual_derivative (gs : R -> triple -> form_visit -> Z -> Z -> R) gJ x y t c : in_box zero3 N t -> 0 <= c < dof ->
    (forall e f q i, In e (box zero3 nel) -> In f (pieces dim nel visit e) -> 0 <= q < npts e f -> 0 <= i < n ->
       derivable_pt_lim (fun s => gs s e f q i) 0 (rsum (fun j => gJ e f q (i * n + j)%Z * earr e (released y) j)%R (zseq 0 n))) ->
    derivable_pt_lim (fun s => residual dim dof N nen nel first visit npts JW presc loads (gs s) (nalong x s y) t c) 0
      (node_row N dof (jacobian dim dof N nen nel first visit npts JW presc gJ) y t c).
  Proof.
    intros Ht Hc H. rewrite jacobian_row by auto. unfold residual. destruct (presc t c) as [v|] eqn:E.
    - apply (dpl_ext _ (fun s => (x t c + s * y t c - v) * multiplicity N nen nel first t)%R); [intros s; unfold nalong; apply Rmult_comm|].
      rewrite Rmult_comm. apply dpl_scal. apply (dpl_eq _ _ _ (y t c - 0)%R); [lra|].
      apply (derivable_pt_lim_minus (fun s => x t c + s * y t c)%R (fun _ => v)); [apply dpl_affine|apply derivable_pt_lim_const].
    - rewrite plain_row by auto.
      eapply dpl_eq; [symmetry; apply Rminus_0_r|].
      apply (derivable_pt_lim_minus (fun s => plain_vector dim dof N nen nel first visit npts JW (gs s) t c) (fun _ => plain_load N nen nel first loads t c));
        [|apply derivable_pt_lim_const].
      unfold plain_vector, DrvSpec.scatter. apply (dpl_rsum triple (fun e s => rsum (fun a => if triple_eqb (node e a) t then integral e (fun f q => gs s e f q (lin nen a * dof + c)) else 0%R) (box zero3 nen))).
      intros e He. apply (dpl_rsum triple (fun a s => if triple_eqb (node e a) t then integral e (fun f q => gs s e f q (lin nen a * dof + c)) else 0%R)).
      intros a Ha. apply dpl_if. unfold DrvSpec.integral.
      apply In_box in Ha. pose proof (index_lt a c Ha Hc) as Hi. set (i := lin nen a * dof + c) in *.
      replace (rsum (fun j => rsum (fun f => rsum (fun q => gJ e f q (i * n + j)%Z * JW e f q)%R (zseq 0 (npts e f))) (pieces dim nel visit e) * earr e (released y) j)%R (zseq 0 n))
        with (rsum (fun f => rsum (fun q => rsum (fun j => gJ e f q (i * n + j)%Z * earr e (released y) j)%R (zseq 0 n) * JW e f q)%R (zseq 0 (npts e f))) (pieces dim nel visit e)).
      2:{ transitivity (rsum (fun f => rsum (fun j => rsum (fun q => gJ e f q (i * n + j)%Z * JW e f q)%R (zseq 0 (npts e f)) * earr e (released y) j)%R (zseq 0 n)) (pieces dim nel visit e)).
          - apply rsum_ext. intros f _. transitivity (rsum (fun q => rsum (fun j => gJ e f q (i * n + j)%Z * JW e f q * earr e (released y) j)%R (zseq 0 n)) (zseq 0 (npts e f))).
            + apply rsum_ext. intros q _. rewrite Rmult_comm, <- rsum_scal. apply rsum_ext. intros. lra.
            + rewrite rsum_comm. apply rsum_ext. intros j _. rewrite Rmult_comm, <- rsum_scal. apply rsum_ext. intros. lra.
          - rewrite rsum_comm. apply rsum_ext. intros j _. rewrite Rmult_comm, <- rsum_scal. apply rsum_ext. intros. lra. }
      apply (dpl_rsum form_visit (fun f s => rsum (fun q => gs s e f q i * JW e f q)%R (zseq 0 (npts e f)))). intros f Hf.
      apply (dpl_rsum Z (fun q s => gs s e f q i * JW e f q)%R). intros q Hq. apply in_zseq in Hq. apply dpl_scal. apply H; auto.
  Qed.

  (** Assembling element arrays that carry the boundary treatment. *)
  Lemma residual_serial Fe X x g t c : 0 <= c < dof ->
    (forall e a, In e (box zero3 nel) -> in_box zero3 nen a ->
       Fe e (map (elem_copy N nen first dof e) X) (lin nen a * dof + c) =
       match presc (node e a) c with
       | Some v => (x (node e a) c - v)%R
       | None => (integral e (fun f q => g e f q (lin nen a * dof + c)%Z) - loads e a c)%R
       end) ->
    serial_vector N nen first dof nel Fe X t c = residual dim dof N nen nel first visit npts JW presc loads g x t c.
  Proof.
    intros Hc H. rewrite serial_vector_scatter. unfold residual. destruct (presc t c) as [v|] eqn:E.
    - rewrite <- scatter_const. apply scatter_ext. intros e a He Ha <-. rewrite H, E by auto. reflexivity.
    - unfold plain_vector, plain_load. rewrite scatter_minus. apply scatter_ext. intros e a He Ha Et. rewrite H by auto. rewrite Et, E. reflexivity.
  Qed.
  Lemma jacobian_serial Ke X g t c u d : 0 <= c < dof -> 0 <= d < dof ->
    (forall e a b, In e (box zero3 nel) -> in_box zero3 nen a -> in_box zero3 nen b ->
       Ke e (map (elem_copy N nen first dof e) X) ((lin nen a * dof + c) * (vol nen * dof) + (lin nen b * dof + d)) =
       match presc (node e a) c, presc (node e b) d with
       | None, None => integral e (fun f q => g e f q ((lin nen a * dof + c) * (vol nen * dof) + (lin nen b * dof + d)))
       | _, _ => delta (lin nen a * dof + c) (lin nen b * dof + d)
       end) ->
    serial_matrix N nen first dof nel Ke X t c u d = jacobian dim dof N nen nel first visit npts JW presc g t c u d.
  Proof.
    intros Hc Hd H. rewrite serial_matrix_scatter. unfold scatter2, jacobian.
    assert (ID : (exists v, presc t c = Some v) \/ (exists v, presc u d = Some v) ->
      scatter (fun e a => rsum (fun b => if triple_eqb (node e b) u then Ke e (map (elem_copy N nen first dof e) X)
         ((lin nen a * dof + c) * (vol nen * dof) + (lin nen b * dof + d)) else 0%R) (box zero3 nen)) t =
      (if triple_eqb t u && (c =? d) then multiplicity N nen nel first t else 0%R)).
    { intros Hp.
      transitivity (scatter (fun e a => rsum (fun b => if triple_eqb (node e b) u then delta (lin nen a * dof + c) (lin nen b * dof + d) else 0%R) (box zero3 nen)) t).
      - apply scatter_ext. intros e a He Ha Ea. apply rsum_ext. intros b Hb. destruct (triple_eqb (node e b) u) eqn:Eb; auto. apply triple_eqb_eq in Eb.
        apply In_box in Hb. rewrite H by auto. rewrite Ea, Eb. destruct Hp as [(v & ->)|(v & ->)]; [|destruct (presc t c)]; reflexivity.
      - transitivity (scatter (fun _ _ => if triple_eqb t u && (c =? d) then 1%R else 0%R) t).
        + apply scatter_ext. intros e a He Ha Ea. rewrite (rsum_single _ _ _ a); [|apply NoDup_box|apply In_box; auto|].
          * rewrite Ea. unfold delta. destruct (triple_eqb t u); cbn [andb]; auto.
            replace (lin nen a * dof + c =? lin nen a * dof + d) with (c =? d) by lia. reflexivity.
          * intros b Hb Hne. apply In_box in Hb. destruct (triple_eqb (node e b) u); auto. unfold delta.
            destruct (lin nen a * dof + c =? lin nen b * dof + d) eqn:Q; auto. exfalso. apply Hne. symmetry.
            destruct (cell_inj dof (lin nen a) c (lin nen b) d) as (Y & _); [lia|lia|lia|]. apply (lin_inj nen); auto.
        + rewrite scatter_const. destruct (triple_eqb t u && (c =? d)); lra. }
    destruct (presc t c) as [v|] eqn:E; [apply ID; eauto|]. destruct (presc u d) as [v|] eqn:E'; [apply ID; eauto|].
    unfold plain_matrix, scatter2. apply scatter_ext. intros e a He Ha Ea. apply rsum_ext. intros b Hb. apply In_box in Hb.
    destruct (triple_eqb (node e b) u) eqn:Eb; auto. apply triple_eqb_eq in Eb. rewrite H by auto. rewrite Ea, Eb, E, E'. reflexivity.
  Qed.
  Lemma system_serial Be X gK gF t c : 0 <= c < dof ->
    (forall e a, In e (box zero3 nel) -> in_box zero3 nen a ->
       Be e (map (elem_copy N nen first dof e) X) (lin nen a * dof + c) =
       match presc (node e a) c with
       | Some v => v
       | None => (integral e (fun f q => gF e f q (lin nen a * dof + c)%Z) + loads e a c -
            rsum (fun j => integral e (fun f q => gK e f q ((lin nen a * dof + c) * n + j)%Z) *
               earr e (fun u d => match presc u d with Some v => v | None => 0 end) j) (zseq 0 n))%R
       end) ->
    serial_vector N nen first dof nel Be X t c = system_rhs dim dof N nen nel first visit npts JW presc loads gK gF t c.
  Proof.
    intros Hc H. rewrite serial_vector_scatter. unfold system_rhs. destruct (presc t c) as [v|] eqn:E.
    - rewrite <- scatter_const. apply scatter_ext. intros e a He Ha <-. rewrite H, E by auto. reflexivity.
    - rewrite plain_row by auto. unfold plain_vector, plain_load.
      rewrite scatter_plus, scatter_minus. apply scatter_ext. intros e a He Ha Et. rewrite H by auto. rewrite Et, E. reflexivity.
  Qed.

  (** The linear path and the nonlinear path pose the same equations. *)
  Lemma system_residual gK gF g x t c : in_box zero3 N t -> 0 <= c < dof ->
    (forall e f q i, In e (box zero3 nel) -> In f (pieces dim nel visit e) -> 0 <= q < npts e f -> 0 <= i < n ->
       g e f q i = (rsum (fun j => gK e f q (i * n + j)%Z * earr e (held x) j) (zseq 0 n) - gF e f q i)%R) ->
    residual dim dof N nen nel first visit npts JW presc loads g x t c =
    (node_row N dof (jacobian dim dof N nen nel first visit npts JW presc gK) x t c -
     system_rhs dim dof N nen nel first visit npts JW presc loads gK gF t c)%R.
  Proof.
    intros Ht Hc H. rewrite jacobian_row by auto. unfold residual, system_rhs. destruct (presc t c) as [v|] eqn:E; [lra|].
    set (pv := fun u d => match presc u d with Some v => v | None => 0%R end).
    assert (Eh : node_row N dof (plain_matrix dim dof N nen nel first visit npts JW gK) (held x) t c =
      (node_row N dof (plain_matrix dim dof N nen nel first visit npts JW gK) (released x) t c +
       node_row N dof (plain_matrix dim dof N nen nel first visit npts JW gK) pv t c)%R).
    { unfold node_row. rewrite <- rsum_plus. apply rsum_ext. intros u _. rewrite <- rsum_plus. apply rsum_ext. intros d _.
      unfold DrvSpec.held, DrvSpec.released, pv. destruct (presc u d); lra. }
    assert (Ep : plain_vector dim dof N nen nel first visit npts JW g t c =
      (node_row N dof (plain_matrix dim dof N nen nel first visit npts JW gK) (held x) t c - plain_vector dim dof N nen nel first visit npts JW gF t c)%R).
    { rewrite plain_row by auto. unfold plain_vector. rewrite scatter_minus. apply scatter_ext. intros e a He Ha _.
      pose proof (index_lt a c Ha Hc) as Hi. set (i := lin nen a * dof + c) in *. unfold DrvSpec.integral.
      replace (rsum (fun j => rsum (fun f => rsum (fun q => gK e f q (i * n + j)%Z * JW e f q)%R (zseq 0 (npts e f))) (pieces dim nel visit e) * earr e (held x) j)%R (zseq 0 n))
        with (rsum (fun f => rsum (fun q => rsum (fun j => gK e f q (i * n + j)%Z * earr e (held x) j)%R (zseq 0 n) * JW e f q)%R (zseq 0 (npts e f))) (pieces dim nel visit e)).
      2:{ transitivity (rsum (fun f => rsum (fun j => rsum (fun q => gK e f q (i * n + j)%Z * JW e f q)%R (zseq 0 (npts e f)) * earr e (held x) j)%R (zseq 0 n)) (pieces dim nel visit e)).
          - apply rsum_ext. intros f _. transitivity (rsum (fun q => rsum (fun j => gK e f q (i * n + j)%Z * JW e f q * earr e (held x) j)%R (zseq 0 n)) (zseq 0 (npts e f))).
            + apply rsum_ext. intros q _. rewrite Rmult_comm, <- rsum_scal. apply rsum_ext. intros. lra.
            + rewrite rsum_comm. apply rsum_ext. intros j _. rewrite Rmult_comm, <- rsum_scal. apply rsum_ext. intros. lra.
          - rewrite rsum_comm. apply rsum_ext. intros j _. rewrite Rmult_comm, <- rsum_scal. apply rsum_ext. intros. lra. }
      rewrite rsum_minus. apply rsum_ext. intros f Hf. rewrite rsum_minus. apply rsum_ext. intros q Hq. apply in_zseq in Hq.
      rewrite (H e f q i He Hf ltac:(lia) Hi). lra. }
    rewrite Ep, Eh. lra.
  Qed.
End Calculus.
