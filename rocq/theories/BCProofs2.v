(** Proofs about IGAElementFixSystem, FixValues, FixFunction, FixJacobian and their assembly. *)
From Coq Require Import ZArith List Bool Reals Lia Lra Permutation.
From Coq Require Import ZifyBool ZifyNat.
From Verif Require Import Prelude Box AxisInitModel GridSpec GridProofs ElemSpec BCModel BCSpec BCProofs.
Import ListNotations.
Open Scope Z_scope.

Lemma upd_same : forall A (f : Z -> A) i v, upd f i v i = v.
Proof. intros. unfold upd. rewrite Z.eqb_refl. reflexivity. Qed.
Lemma upd_other : forall A (f : Z -> A) i v x, x <> i -> upd f i v x = f x.
Proof. intros. unfold upd. replace (x =? i) with false by lia. reflexivity. Qed.

(** Loops writing pairwise different cells. *)
Lemma fold_upd_const : forall A (pos : Z -> Z) (v : Z -> A) l f x,
  (forall i j, In i l -> In j l -> pos i = pos j -> v i = v j) ->
  fold_left (fun f i => upd f (pos i) (v i)) l f x =
  match find (fun i => pos i =? x) l with Some i => v i | None => f x end.
Proof.
  intros A pos v l. induction l as [|a l IH]; intros f x H; cbn [fold_left find]; auto.
  rewrite IH by (intros; apply H; try right; auto). destruct (pos a =? x) eqn:E.
  - destruct (find (fun i => pos i =? x) l) as [b|] eqn:F.
    + apply find_some in F. apply H; [right; tauto|left; auto|lia].
    + replace x with (pos a) by lia. apply upd_same.
  - destruct (find (fun i => pos i =? x) l); auto. apply upd_other. lia.
Qed.
Lemma fold_upd_sub : forall (w : Z -> R) l (f : Z -> R) x, NoDup l ->
  fold_left (fun f i => upd f i (f i - w i)%R) l f x = if existsb (Z.eqb x) l then (f x - w x)%R else f x.
Proof.
  intros w l. induction l as [|a l IH]; intros f x H; cbn [fold_left existsb]; auto.
  apply NoDup_cons_iff in H. destruct H as (H1 & H2). rewrite IH by auto. unfold upd. destruct (x =? a) eqn:E; cbn [orb].
  - assert (x = a) by lia. subst. replace (existsb (Z.eqb a) l) with false; auto. symmetry. apply not_true_iff_false.
    intros X. apply existsb_exists in X. destruct X as (y & Y1 & Y2). assert (a = y) by lia. subst. contradiction.
  - reflexivity.
Qed.
Lemma existsb_zseq : forall x n, 0 <= x < n -> existsb (Z.eqb x) (zseq 0 n) = true.
Proof. intros. apply existsb_exists. exists x. split; [apply in_zseq; lia|apply Z.eqb_refl]. Qed.

Lemma cell_inj : forall n i j i' j', 0 <= j < n -> 0 <= j' < n -> i*n + j = i'*n + j' -> i = i' /\ j = j'.
Proof.
  intros n i j i' j' Hj Hj' E. assert (i = i').
  { pose proof (Z.div_unique_pos (i*n+j) n i j ltac:(lia) ltac:(lia)) as D.
    pose proof (Z.div_unique_pos (i*n+j) n i' j' ltac:(lia) ltac:(lia)) as D'. congruence. }
  subst. lia.
Qed.

Lemma col_zero : forall n K k i j, 0 <= k < n -> 0 <= i < n -> 0 <= j < n ->
  loop n (fun i K => upd K (i*n + k) 0%R) K (i*n + j) = if j =? k then 0%R else K (i*n+j).
Proof.
  intros n K k i j Hk Hi Hj. unfold loop.
  rewrite (fold_upd_const R (fun i => i*n + k) (fun _ => 0%R)) by reflexivity.
  destruct (find (fun i0 => i0*n + k =? i*n + j) (zseq 0 n)) as [x|] eqn:F.
  - apply find_some in F. destruct F as (_ & F). destruct (cell_inj n x k i j Hk Hj) as (_ & ->); [lia|]. rewrite Z.eqb_refl. reflexivity.
  - destruct (j =? k) eqn:E; auto. exfalso. apply find_none with (x := i) in F; [|apply in_zseq; lia].
    assert (j = k) by lia. subst. rewrite Z.eqb_refl in F. discriminate.
Qed.
Lemma row_zero : forall n K k i j, 0 <= k < n -> 0 <= i < n -> 0 <= j < n ->
  loop n (fun j K => upd K (k*n + j) 0%R) K (i*n + j) = if i =? k then 0%R else K (i*n+j).
Proof.
  intros n K k i j Hk Hi Hj. unfold loop.
  rewrite (fold_upd_const R (fun j => k*n + j) (fun _ => 0%R)) by reflexivity.
  destruct (find (fun j0 => k*n + j0 =? i*n + j) (zseq 0 n)) as [x|] eqn:F.
  - apply find_some in F. destruct F as (F0 & F). apply in_zseq in F0. destruct (cell_inj n k x i j ltac:(lia) Hj) as (-> & _); [lia|]. rewrite Z.eqb_refl. reflexivity.
  - destruct (i =? k) eqn:E; auto. exfalso. apply find_none with (x := j) in F; [|apply in_zseq; lia].
    assert (i = k) by lia. subst. rewrite Z.eqb_refl in F. discriminate.
Qed.

Definition delta (i j : Z) : R := if i =? j then 1%R else 0%R.
Definition is_fixed (fix_ : list (Z * R)) (i : Z) : bool := match lookup i fix_ with Some _ => true | None => false end.

(** One elimination step, cell by cell. *)
Lemma jac_step : forall n K k i j, 0 <= k < n -> 0 <= i < n -> 0 <= j < n ->
  upd (loop n (fun j K => upd K (k*n + j) 0%R) (loop n (fun i K => upd K (i*n + k) 0%R) K)) (k*n+k) 1%R (i*n+j) =
  if (i =? k) || (j =? k) then delta i j else K (i*n+j).
Proof.
  intros n K k i j Hk Hi Hj. unfold upd at 1. destruct (i*n + j =? k*n + k) eqn:E.
  - destruct (cell_inj n i j k k Hj Hk) as (-> & ->); [lia|]. rewrite Z.eqb_refl. unfold delta. rewrite Z.eqb_refl. reflexivity.
  - rewrite row_zero, col_zero by auto. unfold delta. destruct (i =? k) eqn:A, (j =? k) eqn:B; cbn [orb]; auto.
    + exfalso. assert (i = k) by lia. assert (j = k) by lia. subst. lia.
    + replace (i =? j) with false by lia. reflexivity.
    + replace (i =? j) with false by lia. reflexivity.
Qed.

Definition fixes_ok (n : Z) (fix_ : list (Z * R)) : Prop := NoDup (keys fix_) /\ forall k, In k (keys fix_) -> 0 <= k < n.

Lemma fix_jacobian_spec : forall n fix_ J i j, fixes_ok n fix_ -> 0 <= i < n -> 0 <= j < n ->
  fix_jacobian n fix_ J (i*n+j) = if is_fixed fix_ i || is_fixed fix_ j then delta i j else J (i*n+j).
Proof.
  intros n fix_ J i j (ND & B) Hi Hj. unfold fix_jacobian. revert J. induction fix_ as [|[k v] l IH]; intros J; cbn [fold_left fst]; auto.
  cbn [keys map fst] in ND, B. apply NoDup_cons_iff in ND. destruct ND as (N1 & N2).
  rewrite IH by (auto; intros; apply B; right; auto). rewrite jac_step by (auto; apply B; left; auto).
  unfold is_fixed. rewrite !lookup_cons. rewrite (Z.eqb_sym k i), (Z.eqb_sym k j).
  destruct (i =? k) eqn:A, (j =? k) eqn:C, (lookup i l), (lookup j l); cbn [orb]; auto.
Qed.

Definition fsum (n : Z) (K : Z -> R) (fix_ : list (Z * R)) (i : Z) : R := rsum (fun e => K (i*n + fst e)%Z * snd e)%R fix_.

Lemma fix_system_core : forall n fix_ K F, fixes_ok n fix_ ->
  forall KF, KF = fold_left (fun KF e =>
    let '(K, F) := KF in let k := fst e in let v := snd e in
    let F := loop n (fun i F => upd F i (F i - K (i*n + k)%Z * v)%R) F in
    let K := loop n (fun i K => upd K (i*n + k) 0%R) K in
    let K := loop n (fun j K => upd K (k*n + j) 0%R) K in
    (upd K (k*n + k) 1%R, upd F k v)) fix_ (K, F) ->
  (forall i j, 0 <= i < n -> 0 <= j < n -> fst KF (i*n+j) = if is_fixed fix_ i || is_fixed fix_ j then delta i j else K (i*n+j)) /\
  (forall i, 0 <= i < n -> snd KF i = match lookup i fix_ with Some v => v | None => (F i - fsum n K fix_ i)%R end).
Proof.
  intros n fix_ K F (ND & B) KF ->. revert K F. induction fix_ as [|[k v] l IH]; intros K F; cbn [fold_left fst snd].
  - split; auto. intros. rewrite lookup_nil. unfold fsum, rsum. cbn [map fold_right]. lra.
  - cbn [keys map fst] in ND, B. apply NoDup_cons_iff in ND. destruct ND as (N1 & N2).
    assert (Hk : 0 <= k < n) by (apply B; left; auto).
    specialize (IH N2 ltac:(intros; apply B; right; auto)
       (upd (loop n (fun j K => upd K (k*n + j) 0%R) (loop n (fun i K => upd K (i*n + k) 0%R) K)) (k*n+k) 1%R)
       (upd (loop n (fun i F => upd F i (F i - K (i*n + k)%Z * v)%R) F) k v)).
    destruct IH as (I1 & I2). split.
    + intros i j Hi Hj. rewrite I1 by auto. rewrite jac_step by auto. unfold is_fixed. rewrite !lookup_cons. rewrite (Z.eqb_sym k i), (Z.eqb_sym k j).
      destruct (i =? k), (j =? k), (lookup i l), (lookup j l); cbn [orb]; auto.
    + intros i Hi. rewrite I2 by auto. rewrite lookup_cons. destruct (k =? i) eqn:E.
      * assert (k = i) by lia. subst k. rewrite (proj2 (lookup_None _ l i)) by exact N1. rewrite upd_same.
        unfold fsum. rewrite rsum_zero; [lra|]. intros [x w] Hx. cbn [fst snd].
        assert (0 <= x < n) by (apply B; right; apply (in_map fst) in Hx; exact Hx).
        rewrite jac_step by auto. rewrite Z.eqb_refl. cbn [orb]. unfold delta.
        destruct (i =? x) eqn:C; [|lra]. exfalso. apply N1. apply (in_map fst) in Hx. cbn [fst] in Hx. replace i with x by lia. exact Hx.
      * destruct (lookup i l); auto. rewrite upd_other by lia.
        unfold loop at 1. rewrite (fold_upd_sub (fun i => K (i*n+k)%Z * v)%R) by apply NoDup_zseq. rewrite existsb_zseq by auto.
        unfold fsum. rewrite rsum_cons. cbn [fst snd].
        rewrite (rsum_ext _ _ (fun e => K (i*n + fst e)%Z * snd e)%R).
        2:{ intros [x w] Hx. cbn [fst snd]. assert (0 <= x < n) by (apply B; right; apply (in_map fst) in Hx; exact Hx).
            rewrite jac_step by auto. replace (i =? k) with false by lia. cbn [orb]. destruct (x =? k) eqn:C; auto.
            exfalso. apply N1. apply (in_map fst) in Hx. cbn [fst] in Hx. replace k with x by lia. exact Hx. }
        lra.
Qed.

Definition flux_at (flux : list (Z * R)) (i : Z) : R := rsum (fun e => if fst e =? i then snd e else 0%R) flux.
Lemma flux_add_spec : forall sg flux (F : Z -> R) i,
  fold_left (fun F e => upd F (fst e) (F (fst e) + sg * snd e)%R) flux F i = (F i + sg * flux_at flux i)%R.
Proof.
  intros sg flux. unfold flux_at. induction flux as [|[k v] l IH]; intros F i; cbn [fold_left fst snd].
  - unfold rsum. cbn [map fold_right]. lra.
  - rewrite IH, rsum_cons. cbn [fst snd]. unfold upd. rewrite (Z.eqb_sym k i). destruct (i =? k) eqn:E; [|lra].
    replace k with i by lia. lra.
Qed.

Lemma fix_system_spec : forall n fix_ flux K F, fixes_ok n fix_ ->
  let KF := fix_system n fix_ flux K F in
  (forall i j, 0 <= i < n -> 0 <= j < n -> fst KF (i*n+j) = if is_fixed fix_ i || is_fixed fix_ j then delta i j else K (i*n+j)) /\
  (forall i, 0 <= i < n -> snd KF i = match lookup i fix_ with Some v => v | None => (F i + flux_at flux i - fsum n K fix_ i)%R end).
Proof.
  intros n fix_ flux K F H KF.
  destruct (fix_system_core n fix_ K (fold_left (fun F e => upd F (fst e) (F (fst e) + snd e)%R) flux F) H KF eq_refl) as (A & B).
  split; auto. intros i Hi. rewrite B by auto. destruct (lookup i fix_); auto. f_equal.
  rewrite <- (Rmult_1_l (flux_at flux i)). rewrite <- flux_add_spec.
  assert (E : forall l (G H : Z -> R) , (forall x, G x = H x) -> forall x, fold_left (fun F e => upd F (fst e) (F (fst e) + snd e)%R) l G x =
     fold_left (fun F e => upd F (fst e) (F (fst e) + 1 * snd e)%R) l H x).
  { induction l as [|[k v] l IH]; intros G H0 HG x; cbn [fold_left]; auto. apply IH. intros y. cbn [fst snd]. unfold upd.
    rewrite !HG. destruct (y =? k); auto. lra. }
  apply E. reflexivity.
Qed.

(** Splitting a row sum into fixed and free columns. *)
Lemma fsum_split : forall n fix_ (g : Z -> R) , fixes_ok n fix_ ->
  rsum (fun e => g (fst e)) fix_ = rsum (fun j => if is_fixed fix_ j then g j else 0%R) (zseq 0 n).
Proof.
  intros n fix_ g (ND & B). induction fix_ as [|[k v] l IH].
  - unfold rsum at 1. cbn [map fold_right]. symmetry. apply rsum_zero. reflexivity.
  - cbn [keys map fst] in ND, B. apply NoDup_cons_iff in ND. destruct ND as (N1 & N2). rewrite rsum_cons, IH by (auto; intros; apply B; right; auto).
    cbn [fst]. assert (Hk : 0 <= k < n) by (apply B; left; auto).
    rewrite (rsum_ext _ (fun j => if is_fixed ((k,v)::l) j then g j else 0%R)
       (fun j => (if j =? k then g k else 0) + (if is_fixed l j then g j else 0))%R).
    2:{ intros j _. unfold is_fixed. rewrite lookup_cons, (Z.eqb_sym k j). destruct (j =? k) eqn:E.
        - replace j with k by lia. rewrite (proj2 (lookup_None _ l k)) by exact N1. lra.
        - destruct (lookup j l); lra. }
    rewrite rsum_plus. f_equal. rewrite (rsum_single _ _ _ k); [rewrite Z.eqb_refl; reflexivity|apply NoDup_zseq|apply in_zseq; lia|].
    intros x _ Hx. replace (x =? k) with false by lia. reflexivity.
Qed.

Lemma is_fixed_spec : forall n fix_ i, fixes_ok n fix_ -> (is_fixed fix_ i = true <-> constrained fix_ i).
Proof.
  intros n fix_ i (ND & _). unfold is_fixed, constrained. split.
  - destruct (lookup i fix_) as [v|] eqn:E; [|discriminate]. intros _. exists v. apply lookup_In; auto.
  - intros (v & Hv). apply lookup_In in Hv; auto. rewrite Hv. reflexivity.
Qed.

(** Residual of the fixed element system. *)
Lemma fixed_residual : forall n fix_ flux K F u, fixes_ok n fix_ ->
  let KF := fix_system n fix_ flux K F in
  (forall i v, 0 <= i < n -> lookup i fix_ = Some v -> (mat_row n (fst KF) u i - snd KF i = u i - v)%R) /\
  ((forall k v, In (k, v) fix_ -> u k = v) -> forall i, 0 <= i < n -> lookup i fix_ = None ->
    (mat_row n (fst KF) u i - snd KF i = mat_row n K u i - (F i + flux_at flux i))%R).
Proof.
  intros n fix_ flux K F u OK KF. destruct (fix_system_spec n fix_ flux K F OK) as (A & B). fold KF in A, B. split.
  - intros i v Hi E. rewrite B by auto. rewrite E. unfold mat_row.
    rewrite (rsum_single _ _ _ i); [|apply NoDup_zseq|apply in_zseq; lia|].
    + rewrite A by auto. unfold is_fixed. rewrite E. cbn [orb]. unfold delta. rewrite Z.eqb_refl. lra.
    + intros x Hx Hne. apply in_zseq in Hx. rewrite A by lia. unfold is_fixed. rewrite E. cbn [orb]. unfold delta.
      replace (i =? x) with false by lia. lra.
  - intros Hu i Hi E. rewrite B by auto. rewrite E. unfold fsum.
    rewrite (rsum_ext _ (fun e => K (i*n + fst e)%Z * snd e)%R (fun e => K (i*n + fst e)%Z * u (fst e))%R)
      by (intros [k v] Hk; cbn [fst snd]; rewrite (Hu k v Hk); reflexivity).
    rewrite (fsum_split n fix_ (fun k => K (i*n+k)%Z * u k)%R OK).
    unfold mat_row.
    rewrite (rsum_ext _ (fun j => K (i*n+j)%Z * u j)%R (fun j => fst KF (i*n+j)%Z * u j + (if is_fixed fix_ j then K (i*n+j)%Z * u j else 0))%R).
    2:{ intros j Hj. apply in_zseq in Hj. rewrite A by lia. unfold is_fixed at 1. rewrite E. cbn [orb]. destruct (is_fixed fix_ j) eqn:Ej; [|lra].
        unfold delta. destruct (i =? j) eqn:Eij; [|lra]. exfalso. unfold is_fixed in Ej. replace j with i in Ej by lia. rewrite E in Ej. discriminate. }
    rewrite rsum_plus. lra.
Qed.

(** * FixValues / FixFunction *)
Lemma fix_values_spec : forall fix_ U, NoDup (keys fix_) ->
  fst (fix_values fix_ U) = map (fun e => U (fst e)) fix_ /\
  forall i, snd (fix_values fix_ U) i = match lookup i fix_ with Some v => v | None => U i end.
Proof.
  intros fix_ U ND. unfold fix_values.
  assert (K : forall l acc (W : Z -> R), NoDup (keys l) ->
    fst (fold_left (fun st e => (fst st ++ [snd st (fst e)], upd (snd st) (fst e) (snd e))) l (acc, W)) = acc ++ map (fun e => W (fst e)) l /\
    forall i, snd (fold_left (fun st e => (fst st ++ [snd st (fst e)], upd (snd st) (fst e) (snd e))) l (acc, W)) i = match lookup i l with Some v => v | None => W i end).
  { induction l as [|[k v] l IH]; intros acc W N; cbn [fold_left fst snd map].
    - rewrite app_nil_r. auto.
    - cbn [keys map fst] in N. apply NoDup_cons_iff in N. destruct N as (N1 & N2). destruct (IH (acc ++ [W k]) (upd W k v) N2) as (A & B).
      rewrite A. split.
      + rewrite <- app_assoc. cbn [app]. f_equal. f_equal. apply map_ext_in. intros [x w] Hx. cbn [fst]. apply upd_other.
        intros ->. apply N1. apply (in_map fst) in Hx. exact Hx.
      + intros i. rewrite B, lookup_cons. destruct (k =? i) eqn:E.
        * assert (k = i) by lia. subst. rewrite (proj2 (lookup_None _ l i)) by exact N1. apply upd_same.
        * destruct (lookup i l); auto. apply upd_other. lia. }
  destruct (K fix_ [] U ND) as (A & B). split; [rewrite A; reflexivity|exact B].
Qed.
Lemma fix_function_spec : forall fix_ flux U F i, NoDup (keys fix_) ->
  fix_function fix_ flux (fst (fix_values fix_ U)) F i =
  match lookup i fix_ with Some v => (U i - v)%R | None => (F i - flux_at flux i)%R end.
Proof.
  intros fix_ flux U F i ND. unfold fix_function. rewrite (proj1 (fix_values_spec fix_ U ND)).
  assert (E0 : fold_left (fun F e => upd F (fst e) (F (fst e) - snd e)%R) flux F i = (F i - flux_at flux i)%R).
  { replace (F i - flux_at flux i)%R with (F i + (-1) * flux_at flux i)%R by lra. rewrite <- flux_add_spec.
    assert (E : forall l (G H : Z -> R) , (forall x, G x = H x) -> forall x, fold_left (fun F e => upd F (fst e) (F (fst e) - snd e)%R) l G x =
     fold_left (fun F e => upd F (fst e) (F (fst e) + -1 * snd e)%R) l H x).
    { induction l as [|[k v] l IH]; intros G H HG x; cbn [fold_left]; auto. apply IH. intros y. cbn [fst snd]. unfold upd.
      rewrite !HG. destruct (y =? k); auto. lra. }
    apply E. reflexivity. }
  rewrite <- E0. generalize (fold_left (fun F e => upd F (fst e) (F (fst e) - snd e)%R) flux F). clear E0 F. intros F. revert F.
  induction fix_ as [|[k v] l IH]; intros F; cbn [map combine fold_left fst snd]; auto.
  cbn [keys map fst] in ND. apply NoDup_cons_iff in ND. destruct ND as (N1 & N2). rewrite IH by auto. rewrite lookup_cons.
  destruct (k =? i) eqn:E.
  - assert (k = i) by lia. subst. rewrite (proj2 (lookup_None _ l i)) by exact N1. apply upd_same.
  - destruct (lookup i l); auto. apply upd_other. lia.
Qed.

(** * Assembly of fixed systems *)
Lemma triple_eqb_eq : forall a b, triple_eqb a b = true <-> a = b.
Proof. intros [[? ?] ?] [[? ?] ?]. unfold triple_eqb. split; [intros; repeat f_equal; lia|intros [= -> -> ->]; lia]. Qed.

Lemma rsum_filter : forall A (P : A -> bool) (f : A -> R) l, rsum f (filter P l) = rsum (fun a => if P a then f a else 0%R) l.
Proof.
  intros A P f l. induction l as [|a l IH]; cbn [filter]; auto. rewrite rsum_cons. destruct (P a); [rewrite rsum_cons, IH; reflexivity|rewrite IH; lra].
Qed.

Section Global.
  Variables N nen : Z -> Z.
  Variable first : triple -> Z -> Z.
  Variable dof : Z.
  Hypothesis Hdof : 1 <= dof.
  Hypothesis Hnen : forall d, 0 <= d < 3 -> 1 <= nen d.
  Variable nel : Z -> Z.
  Hypothesis HN : forall d, 0 <= d < 3 -> 1 <= N d.
  Let n := vol nen * dof.
  Let node := elem_node N first.

  (** Element copy of nodal values as an array. *)
  Definition ecopy (x : nodal) (e : triple) (i : Z) : R := x (node e (unlin nen (i / dof))) (i mod dof).

  Lemma idx_split : forall a c, 0 <= c < dof -> (a*dof + c) / dof = a /\ (a*dof + c) mod dof = c.
  Proof. clear. intros a c H. split; [symmetry; apply (Z.div_unique_pos _ dof a c); lia|symmetry; apply (Z.mod_unique_pos _ dof a c); lia]. Qed.
  Lemma ecopy_at : forall x e t c, in_box zero3 nen t -> 0 <= c < dof -> ecopy x e (lin nen t*dof+c) = x (node e t) c.
  Proof.
    intros x e [[i j] k] c (H0 & H1 & H2) Hc. unfold ecopy. destruct (idx_split (lin nen (i,j,k)) c Hc) as (-> & ->).
    unfold zero3 in *. rewrite unlin_lin by lia. reflexivity.
  Qed.
  Lemma node_in : forall e a, in_box zero3 N (node e a).
  Proof.
    intros e a. unfold node, elem_node, modbox. destruct (tadd (first e) a) as [[i j] k].
    pose proof (HN 0 ltac:(lia)). pose proof (HN 1 ltac:(lia)). pose proof (HN 2 ltac:(lia)). clear - H H0 H1.
    unfold in_box, zero3. repeat split; try (apply Z.mod_pos_bound; lia); rewrite Z.add_0_l; apply Z.mod_pos_bound; lia.
  Qed.
  (** Sums over local dofs, node by node. *)
  Lemma rsum_dofs : forall g : Z -> R, rsum g (zseq 0 n) = rsum (fun t => rsum (fun c => g (lin nen t * dof + c)) (zseq 0 dof)) (box zero3 nen).
  Proof.
    intros g.
    assert (P : Permutation (zseq 0 n) (flat_map (fun t => map (fun c => lin nen t * dof + c) (zseq 0 dof)) (box zero3 nen))).
    { apply NoDup_Permutation; [apply NoDup_zseq| |].
      - apply NoDup_flat_map.
        + apply NoDup_box.
        + intros t Ht. apply NoDup_map_inj; [|apply NoDup_zseq]. intros; lia.
        + intros t t' b Ht Ht' Hb Hb'. apply in_map_iff in Hb, Hb'. destruct Hb as (c & <- & Hc), Hb' as (c' & E & Hc').
          apply in_zseq in Hc, Hc'. apply In_box in Ht, Ht'. apply (lin_inj nen); auto.
          destruct (cell_inj dof (lin nen t') c' (lin nen t) c) as (X & _); lia.
      - intros x. rewrite in_zseq, in_flat_map. unfold n. split.
        + intros Hx. exists (unlin nen (x / dof)).
          pose proof (Hnen 0 ltac:(lia)) as P0. pose proof (Hnen 1 ltac:(lia)) as P1. pose proof (Hnen 2 ltac:(lia)) as P2.
          assert (B : 0 <= x / dof < vol nen).
          { clear - Hx Hdof. split; [apply Z.div_pos; lia|apply Z.div_lt_upper_bound; lia]. }
          assert (E : x = x / dof * dof + x mod dof) by (clear - Hdof; rewrite Z.mul_comm; apply Z.div_mod; lia).
          pose proof (Z.mod_pos_bound x dof ltac:(lia)) as M.
          set (q := x / dof) in *. set (m := x mod dof) in *. clearbody q m.
          destruct (lin_unlin nen q ltac:(lia) ltac:(lia) ltac:(lia) B) as (L1 & L2).
          split; [apply In_box; assumption|]. apply in_map_iff. exists m. split; [rewrite L1; lia|apply in_zseq; lia].
        + intros (t & Ht & Hb). apply in_map_iff in Hb. destruct Hb as (c & <- & Hc). apply in_zseq in Hc. apply In_box in Ht.
          destruct t as [[i j] k]. destruct Ht as (A & B & C). unfold zero3 in *.
          pose proof (lin_range nen i j k ltac:(lia) ltac:(lia) ltac:(lia)) as L. nia. }
    rewrite (rsum_perm _ _ _ _ P), rsum_flat_map. apply rsum_ext. intros t _. rewrite rsum_map. reflexivity.
  Qed.

  (** Global row = sum of element rows. *)
  Lemma global_row : forall (K : triple -> Z -> R) (x : nodal) t c, 0 <= c < dof ->
    node_row N dof (serial_matrix N nen first dof nel (fun e _ => K e) []) x t c =
    rsum (fun e => rsum (fun a => if triple_eqb (node e a) t then mat_row n (K e) (ecopy x e) (lin nen a*dof+c) else 0%R) (box zero3 nen)) (box zero3 nel).
  Proof.
    intros K x t c Hc. unfold node_row, serial_matrix. fold node.
    transitivity (rsum (fun u => rsum (fun d => rsum (fun e => rsum (fun a => rsum (fun b =>
       (if triple_eqb (node e a) t && triple_eqb (node e b) u then K e ((lin nen a*dof+c) * (vol nen*dof) + (lin nen b*dof+d))%Z * x u d else 0))
       (box zero3 nen)) (box zero3 nen)) (box zero3 nel)) (zseq 0 dof)) (box zero3 N))%R.
    { apply rsum_ext. intros u _. apply rsum_ext. intros d _. rewrite Rmult_comm, <- rsum_scal. apply rsum_ext. intros e _.
      rewrite <- rsum_scal. apply rsum_ext. intros a _. rewrite <- rsum_scal. apply rsum_ext. intros b _.
      destruct (triple_eqb (node e a) t && triple_eqb (node e b) u); lra. }
    rewrite (rsum_ext _ _ (fun u => rsum (fun e => rsum (fun d => rsum (fun a => rsum (fun b =>
       (if triple_eqb (node e a) t && triple_eqb (node e b) u then K e ((lin nen a*dof+c) * (vol nen*dof) + (lin nen b*dof+d))%Z * x u d else 0))%R
       (box zero3 nen)) (box zero3 nen)) (zseq 0 dof)) (box zero3 nel))) by (intros; apply rsum_comm).
    rewrite rsum_comm. apply rsum_ext. intros e _.
    rewrite (rsum_ext _ _ (fun u => rsum (fun a => rsum (fun d => rsum (fun b =>
       (if triple_eqb (node e a) t && triple_eqb (node e b) u then K e ((lin nen a*dof+c) * (vol nen*dof) + (lin nen b*dof+d))%Z * x u d else 0))%R
       (box zero3 nen)) (zseq 0 dof)) (box zero3 nen))) by (intros; apply rsum_comm).
    rewrite rsum_comm. apply rsum_ext. intros a _. destruct (triple_eqb (node e a) t) eqn:Ea; cbn [andb].
    2:{ apply rsum_zero. intros. apply rsum_zero. intros. apply rsum_zero. reflexivity. }
    unfold mat_row. rewrite rsum_dofs.
    rewrite (rsum_ext _ _ (fun u => rsum (fun b => rsum (fun d =>
       (if triple_eqb (node e b) u then K e ((lin nen a*dof+c) * (vol nen*dof) + (lin nen b*dof+d))%Z * x u d else 0))%R
       (zseq 0 dof)) (box zero3 nen))) by (intros; apply rsum_comm).
    rewrite rsum_comm. apply rsum_ext. intros b Hb. apply In_box in Hb.
    rewrite (rsum_single _ _ _ (node e b)); [|apply NoDup_box|apply In_box; apply node_in|].
    - apply rsum_ext. intros d Hd. apply in_zseq in Hd. rewrite (proj2 (triple_eqb_eq _ _) eq_refl).
      rewrite ecopy_at by (auto; lia). fold n. reflexivity.
    - intros u _ Hu. apply rsum_zero. intros d _. destruct (triple_eqb (node e b) u) eqn:E; auto. apply triple_eqb_eq in E. congruence.
  Qed.

  Lemma global_vec : forall (F : triple -> Z -> R) t c,
    serial_vector N nen first dof nel (fun e _ => F e) [] t c =
    rsum (fun e => rsum (fun a => if triple_eqb (node e a) t then F e (lin nen a*dof+c) else 0%R) (box zero3 nen)) (box zero3 nel).
  Proof. reflexivity. Qed.

  Lemma rsum_minus : forall A (f g : A -> R) l, (rsum f l - rsum g l = rsum (fun x => f x - g x) l)%R.
  Proof. intros. unfold rsum. induction l as [|a l IH]; cbn [map fold_right]; lra. Qed.
  Lemma rsum_const : forall A (f : A -> R) x l, (forall a, In a l -> f a = x) -> rsum f l = (INR (length l) * x)%R.
  Proof.
    intros A f x l H. induction l as [|a l IH]; [unfold rsum; cbn [map fold_right length INR]; lra|].
    rewrite rsum_cons, IH by (intros; apply H; right; auto). rewrite (H a (or_introl eq_refl)). cbn [length]. rewrite S_INR. lra.
  Qed.

  Variable fixes fluxes : triple -> list (Z * R).
  Variable K F : triple -> Z -> R.
  Variable gv : triple -> Z -> option R.
  Hypothesis Hfix : forall e, In e (box zero3 nel) -> fixes_ok n (fixes e).
  Hypothesis Hgv : forall e a c, In e (box zero3 nel) -> In a (box zero3 nen) -> 0 <= c < dof ->
    lookup (lin nen a * dof + c) (fixes e) = gv (node e a) c.

  Definition K' e := fst (fix_system n (fixes e) (fluxes e) (K e) (F e)).
  Definition F' e := snd (fix_system n (fixes e) (fluxes e) (K e) (F e)).
  Definition Ffl e i := (F e i + flux_at (fluxes e) i)%R.
  Definition touched (t : triple) : Prop := exists e a, In e (box zero3 nel) /\ In a (box zero3 nen) /\ node e a = t.

  Definition res (M : triple -> Z -> R) (b : triple -> Z -> R) (x : nodal) t c : R :=
    (node_row N dof (serial_matrix N nen first dof nel (fun e _ => M e) []) x t c -
     serial_vector N nen first dof nel (fun e _ => b e) [] t c)%R.

  Lemma res_sum : forall M b x t c, 0 <= c < dof ->
    res M b x t c = rsum (fun e => rsum (fun a => if triple_eqb (node e a) t then mat_row n (M e) (ecopy x e) (lin nen a*dof+c)%Z - b e (lin nen a*dof+c)%Z else 0)%R (box zero3 nen)) (box zero3 nel).
  Proof.
    intros M b x t c Hc. unfold res. rewrite global_row by auto. rewrite global_vec, rsum_minus. apply rsum_ext. intros e _.
    rewrite rsum_minus. apply rsum_ext. intros a _. destruct (triple_eqb (node e a) t); lra.
  Qed.

  Lemma lin_lt : forall a c, In a (box zero3 nen) -> 0 <= c < dof -> 0 <= lin nen a * dof + c < n.
  Proof.
    intros [[i j] k] c Ha Hc. apply In_box in Ha. destruct Ha as (A & B & C). unfold zero3 in *.
    pose proof (lin_range nen i j k ltac:(lia) ltac:(lia) ltac:(lia)) as L. unfold n. nia.
  Qed.

  (** Fixed row: a positive multiple of x - v. *)
  Lemma res_fixed : forall x t c v, 0 <= c < dof -> touched t -> gv t c = Some v ->
    exists m, (0 < m)%R /\ res K' F' x t c = (m * (x t c - v))%R.
  Proof.
    intros x t c v Hc Ht Hv. rewrite res_sum by auto.
    set (L := flat_map (fun e => map (fun a => (e, a)) (filter (fun a => triple_eqb (node e a) t) (box zero3 nen))) (box zero3 nel)).
    exists (INR (length L)). split.
    - apply lt_0_INR. destruct Ht as (e & a & He & Ha & E). assert (X : In (e, a) L).
      { unfold L. apply in_flat_map. exists e. split; auto. apply in_map. apply filter_In. split; auto. apply triple_eqb_eq; auto. }
      destruct L; [destruct X|cbn [length]; lia].
    - transitivity (rsum (fun p : triple * triple => (mat_row n (K' (fst p)) (ecopy x (fst p)) (lin nen (snd p)*dof+c)%Z - F' (fst p) (lin nen (snd p)*dof+c)%Z)%R) L).
      { unfold L. rewrite rsum_flat_map. apply rsum_ext. intros e _. rewrite rsum_map. cbn [fst snd].
        symmetry. apply (rsum_filter _ (fun a => triple_eqb (node e a) t) (fun a => (mat_row n (K' e) (ecopy x e) (lin nen a * dof + c)%Z - F' e (lin nen a * dof + c)%Z)%R)). }
      apply rsum_const. intros [e a] Hp. unfold L in Hp. apply in_flat_map in Hp. destruct Hp as (e' & He & Hp). apply in_map_iff in Hp.
      destruct Hp as (a' & [= -> ->] & Hp). apply filter_In in Hp. destruct Hp as (Ha & E). apply triple_eqb_eq in E. cbn [fst snd].
      unfold K', F'. rewrite (proj1 (fixed_residual n (fixes e) (fluxes e) (K e) (F e) (ecopy x e) (Hfix e He)) _ v).
      + rewrite ecopy_at by (auto; apply In_box; auto). rewrite E. reflexivity.
      + apply lin_lt; auto.
      + rewrite Hgv, E by auto. exact Hv.
  Qed.
  (** Free row: unchanged when x takes the prescribed values. *)
  Lemma res_free : forall x t c, 0 <= c < dof ->
    (forall u d v, touched u -> 0 <= d < dof -> gv u d = Some v -> x u d = v) -> gv t c = None ->
    res K' F' x t c = res K Ffl x t c.
  Proof.
    intros x t c Hc Hx Hn. rewrite !res_sum by auto. apply rsum_ext. intros e He. apply rsum_ext. intros a Ha.
    destruct (triple_eqb (node e a) t) eqn:E; auto. apply triple_eqb_eq in E.
    unfold K', F', Ffl. apply (proj2 (fixed_residual n (fixes e) (fluxes e) (K e) (F e) (ecopy x e) (Hfix e He))).
    - intros k v Hk. pose proof (Hfix e He) as (ND & B).
      assert (Hkn : 0 <= k < n) by (apply B; apply (in_map fst) in Hk; exact Hk). clear B.
      pose proof (Hnen 0 ltac:(lia)) as P0. pose proof (Hnen 1 ltac:(lia)) as P1. pose proof (Hnen 2 ltac:(lia)) as P2.
      assert (Hq : 0 <= k / dof < vol nen). { unfold n in Hkn. clear - Hkn Hdof. split; [apply Z.div_pos; lia|apply Z.div_lt_upper_bound; lia]. }
      assert (Ek : k = k / dof * dof + k mod dof) by (clear - Hdof; rewrite Z.mul_comm; apply Z.div_mod; lia).
      pose proof (Z.mod_pos_bound k dof ltac:(lia)) as M.
      destruct (lin_unlin nen (k/dof) ltac:(lia) ltac:(lia) ltac:(lia) Hq) as (L1 & L2).
      set (b := unlin nen (k/dof)) in *.
      assert (Hb : In b (box zero3 nen)) by (apply In_box; assumption).
      assert (Ekb : lin nen b * dof + k mod dof = k) by (rewrite L1; symmetry; exact Ek).
      pose proof (Hgv e b (k mod dof) He Hb M) as G. rewrite Ekb in G.
      apply (lookup_In _ _ _ _ ND) in Hk. rewrite Hk in G. rewrite <- Ekb, ecopy_at by (auto; apply In_box; auto).
      apply Hx; auto. exists e, b. auto.
    - apply lin_lt; auto.
    - rewrite Hgv, E by auto. exact Hn.
  Qed.

  Theorem global_fix : forall x,
    (forall t c, touched t -> 0 <= c < dof -> res K' F' x t c = 0%R) <->
    ((forall t c v, touched t -> 0 <= c < dof -> gv t c = Some v -> x t c = v) /\
     (forall t c, touched t -> 0 <= c < dof -> gv t c = None -> res K Ffl x t c = 0%R)).
  Proof.
    intros x. split.
    - intros H. assert (A : forall t c v, touched t -> 0 <= c < dof -> gv t c = Some v -> x t c = v).
      { intros t c v Ht Hc Hv. destruct (res_fixed x t c v Hc Ht Hv) as (m & Hm & E). rewrite H in E by auto.
        assert (m * (x t c - v) = 0)%R by lra. apply Rmult_integral in H0. destruct H0; lra. }
      split; auto. intros t c Ht Hc Hn. rewrite <- (res_free x t c Hc A Hn). auto.
    - intros (A & B) t c Ht Hc. destruct (gv t c) as [v|] eqn:E.
      + destruct (res_fixed x t c v Hc Ht E) as (m & Hm & R0). rewrite R0, (A t c v) by auto. lra.
      + rewrite (res_free x t c Hc A E). auto.
  Qed.
End Global.
