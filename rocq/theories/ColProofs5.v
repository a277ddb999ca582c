(** Boundary conditions of the collocation method. *)
From Coq Require Import ZArith List Bool Lia Reals Lra Permutation.
From Coq Require Import ZifyBool ZifyNat.
From Verif Require Import Prelude AxisInitModel GridSpec GridProofs BCModel BCSpec BCProofs BCProofs2 ElemModel ElemProofs DrvModel DrvSpec DrvProofs TabModel ColModel ColSpec ColProofs2 ColProofs4.
From Verif Require Import ElemSpec Box.
Import ListNotations.
Open Scope Z_scope.

Section Row.
  Variables dof nen : Z.
  Hypothesis Hdof : 1 <= dof.
  Hypothesis Hnen : 0 <= nen.
  Let n := nen * dof.
  (** row c0 replaced: zero but for the entries of component c0 *)
  Lemma row_write row c0 (K : Z -> R) c j : 0 <= c -> 0 <= c0 < dof -> 0 <= j < n ->
    BCModel.loop nen (fun a K => upd K (c0*n + a*dof + c0) (row a)) (BCModel.loop n (fun j K => upd K (c0*n + j) 0%R) K) (c * n + j) =
    if c =? c0 then (if j mod dof =? c0 then row (j / dof) else 0%R) else K (c * n + j).
  Proof using Hdof Hnen.
    intros Hc Hcv Hj. unfold BCModel.loop.
    pose proof (Z.div_mod j dof ltac:(lia)) as DM. pose proof (Z.mod_pos_bound j dof ltac:(lia)) as MB.
    assert (Hq : 0 <= j / dof < nen) by (split; [apply Z.div_pos; lia|apply Z.div_lt_upper_bound; unfold n in Hj; lia]).
    set (q := j / dof) in *. set (m := j mod dof) in *. clearbody q m.
    assert (InjA : forall a c', 0 <= a < nen -> c0 * n + a * dof + c0 = c' * n + j -> c0 = c' /\ a = q /\ m = c0).
    { intros a c' Ha E. assert (B : 0 <= a * dof + c0 < n) by (unfold n; clear - Ha Hcv Hdof; nia).
      destruct (cell_inj n c0 (a * dof + c0) c' j B Hj ltac:(lia)) as [X Y].
      destruct (cell_inj dof a c0 q m Hcv MB ltac:(lia)) as [X1 Y1]. auto. }
    rewrite (fold_upd_const R (fun a => c0 * n + a * dof + c0) row).
    2:{ intros i i' _ _ E. f_equal. clear - E Hdof. nia. }
    destruct (find (fun i => c0 * n + i * dof + c0 =? c * n + j) (zseq 0 nen)) as [a|] eqn:F.
    - apply find_some in F. destruct F as [F0 F]. apply in_zseq in F0. destruct (InjA a c ltac:(lia) ltac:(lia)) as (E1 & E2 & E3).
      subst c a m. rewrite !Z.eqb_refl. reflexivity.
    - rewrite (fold_upd_const R (fun j => c0 * n + j) (fun _ => 0%R)) by reflexivity.
      destruct (find (fun i => c0 * n + i =? c * n + j) (zseq 0 n)) as [x|] eqn:F'.
      + apply find_some in F'. destruct F' as [F0 F']. apply in_zseq in F0. destruct (cell_inj n c0 x c j ltac:(lia) Hj ltac:(lia)) as [E1 E2].
        subst c x. rewrite Z.eqb_refl. destruct (m =? c0) eqn:Em; [|reflexivity]. exfalso.
        apply find_none with (x := q) in F; [|apply in_zseq; lia]. assert (m = c0) by lia. lia.
      + destruct (c =? c0) eqn:E; [|reflexivity]. exfalso. apply find_none with (x := j) in F'; [|apply in_zseq; lia]. assert (c = c0) by lia. subst. lia.
  Qed.
  Lemma set_row_K row cv KF c j : 0 <= c -> 0 <= fst cv < dof -> 0 <= j < n ->
    fst (set_row dof nen row cv KF) (c * n + j) =
    if c =? fst cv then (if j mod dof =? c then row (j / dof) else 0%R) else fst KF (c * n + j).
  Proof using Hdof Hnen.
    intros Hc Hcv Hj. unfold set_row. cbv zeta. cbn [fst]. fold n. rewrite row_write by auto.
    destruct (c =? fst cv) eqn:E; [|reflexivity]. replace (fst cv) with c by lia. reflexivity.
  Qed.
  Lemma set_row_F row cv KF c : snd (set_row dof nen row cv KF) c = if c =? fst cv then snd cv else snd KF c.
  Proof using. unfold set_row. cbv zeta. cbn [snd]. unfold upd. reflexivity. Qed.

  (** the conditions applied one after the other *)
  Definition apply_conditions (L : list (Z * (Z -> R) * R)) (KF : (Z -> R) * (Z -> R)) : (Z -> R) * (Z -> R) :=
    fold_left (fun KF x => set_row dof nen (snd (fst x)) (fst (fst x), snd x) KF) L KF.
  Definition row_is (KF : (Z -> R) * (Z -> R)) (c : Z) (cond : option ((Z -> R) * R)) (KF' : (Z -> R) * (Z -> R)) : Prop :=
    match cond with
    | Some (coef, v) => (forall j, 0 <= j < n -> fst KF' (c * n + j) = if j mod dof =? c then coef (j / dof) else 0%R) /\ snd KF' c = v
    | None => (forall j, 0 <= j < n -> fst KF' (c * n + j) = fst KF (c * n + j)) /\ snd KF' c = snd KF c
    end.
  Lemma apply_conditions_row L KF c : 0 <= c < dof -> (forall x, In x L -> 0 <= fst (fst x) < dof) ->
    row_is KF c (fold_left (fun cur x => if fst (fst x) =? c then Some (snd (fst x), snd x) else cur) L None) (apply_conditions L KF).
  Proof using Hdof Hnen.
    intros Hc. unfold apply_conditions.
    assert (K : forall L cur KF', (forall x, In x L -> 0 <= fst (fst x) < dof) -> row_is KF c cur KF' ->
      row_is KF c (fold_left (fun cur x => if fst (fst x) =? c then Some (snd (fst x), snd x) else cur) L cur)
        (fold_left (fun KF x => set_row dof nen (snd (fst x)) (fst (fst x), snd x) KF) L KF')).
    { clear L. induction L as [|[[c0 coef] v] L IH]; intros cur KF' HL H; [exact H|]. cbn [fold_left fst snd]. apply IH; [intros; apply HL; right; auto|].
      pose proof (HL _ (or_introl eq_refl)) as H0. cbn [fst] in H0.
      assert (A1 : forall j, 0 <= j < n -> fst (set_row dof nen coef (c0, v) KF') (c * n + j) =
        if c =? c0 then (if j mod dof =? c then coef (j / dof) else 0%R) else fst KF' (c * n + j)).
      { intros j Hj. apply set_row_K; [lia|exact H0|exact Hj]. }
      pose proof (set_row_F coef (c0, v) KF' c) as A2. cbn [fst snd] in A2.
      rewrite Z.eqb_sym. destruct (c =? c0) eqn:E.
      - split; [exact A1|exact A2].
      - unfold row_is in *. destruct cur as [[coef' v']|]; destruct H as [H1 H2]; (split; [intros j Hj; rewrite A1 by auto; apply H1; auto|rewrite A2; exact H2]). }
    intros HL. apply K; [exact HL|]. split; auto.
  Qed.
End Row.

Lemma fold_flat_map {A B S : Type} (f : A -> list B) (g : S -> B -> S) l s : fold_left g (flat_map f l) s = fold_left (fun s a => fold_left g (f a) s) l s.
Proof. revert s. induction l as [|a l IH]; intros s; [reflexivity|]. cbn [flat_map fold_left]. rewrite fold_left_app. apply IH. Qed.
Lemma fold_map {A B S : Type} (f : A -> B) (g : S -> B -> S) l s : fold_left g (map f l) s = fold_left (fun s a => g s (f a)) l s.
Proof. revert s. induction l as [|a l IH]; intros s; [reflexivity|]. cbn [map fold_left]. apply IH. Qed.
Lemma fold_ext {A S : Type} (f g : S -> A -> S) l s : (forall s a, f s a = g s a) -> fold_left f l s = fold_left g l s.
Proof. intros H. revert s. induction l as [|a l IH]; intros s; [reflexivity|]. cbn [fold_left]. rewrite H. apply IH. Qed.

Lemma dot_rsum dim a b : dot dim a b = rsum (fun i => a i * b i)%R (zseq 0 dim).
Proof.
  unfold dot. assert (K : forall l s, fold_left (fun s i => s + a i * b i)%R l s = (s + rsum (fun i => a i * b i)%R l)%R).
  { induction l as [|x l IH]; intros s; cbn [fold_left]; [unfold rsum; cbn; lra|]. rewrite IH. unfold rsum. cbn [map fold_right]. lra. }
  rewrite K. lra.
Qed.

(** IGAElementFixSystem applies the conditions of the node. *)
Lemma col_fix_system_conditions dim dof nen nnp value load shape dshape normal t KF :
  col_fix_system dim dof nen nnp (coord t) value load shape dshape normal KF =
  apply_conditions dof nen (conditions dim nnp value load shape (fun d s a => rsum (fun i => dshape a i * normal d s i)%R (zseq 0 dim)) t) KF.
Proof.
  unfold col_fix_system, apply_conditions, conditions. change (flat_map (fun d => [(d, 0); (d, 1)]) (zseq 0 dim)) with (faces dim).
  rewrite fold_flat_map. apply fold_ext. intros s [d side]. destruct (coord t d =? (if side =? 0 then 0 else nnp d - 1)); [|reflexivity].
  rewrite fold_left_app, !fold_map. cbn [fst snd].
  assert (E : fold_left (fun KF cv => set_row dof nen (fun a => dot dim (dshape a) (normal d side)) cv KF) (load d side) s =
              fold_left (fun s a => set_row dof nen (fun a0 => rsum (fun i => dshape a0 i * normal d side i)%R (zseq 0 dim)) (fst a, snd a) s) (load d side) s).
  { apply fold_ext. intros s' [c v]. cbn [fst snd]. unfold set_row. cbv zeta. cbn [fst snd]. f_equal. unfold BCModel.loop. apply fold_ext. intros K a. rewrite dot_rsum. reflexivity. }
  rewrite <- E. apply fold_ext. intros s' [c v]. reflexivity.
Qed.
