(** Boundary conditions of the collocation method: the nonlinear path. *)
From Coq Require Import ZArith List Bool Lia Reals Lra Permutation.
From Coq Require Import ZifyBool ZifyNat.
From Verif Require Import Prelude RealOrd AxisModel AxisSpec AxisInitModel PartModel PartSpec SetupModel SetupProofs CollocProofs GridModel GridSpec GridProofs BCModel BCSpec BCProofs BCProofs2 ElemModel ElemProofs
  DrvModel DrvSpec DrvProofs TabModel ColModel ColSpec ColProofs ColProofs2 ColProofs3 ColProofs4 ColProofs5.
From Verif Require Import ElemSpec Box.
Import ListNotations.
Open Scope Z_scope.

(** * Lists of fixed entries *)
Section Lists.
  Variable dof : Z.
  Hypothesis Hdof : 1 <= dof.
  Variable table : option (Z -> R).
  Variable nen : Z -> Z.
  Hypothesis Hnen : forall d, 0 <= d < 3 -> 1 <= nen d.
  Variable value : Z -> Z -> list (Z * R).
  Hypothesis Hvalue : forall d s, NoDup (map fst (value d s)) /\ forall k, In k (map fst (value d s)) -> 0 <= k.
  Variable dim : Z.
  Hypothesis Hdim : 1 <= dim <= 3.
  Variable periodic : Z -> bool.
  Hypothesis Hper : forall d, 0 <= d < dim -> periodic d = false.
  Variables sizes first : Z -> Z.
  Hypothesis Hsz : forall d, 0 <= d < dim -> 2 <= sizes d.
  Let step (u : triple) (l : list (Z * R)) : list (Z * R) :=
    let '(ia, ja, ka) := u in let a := lin nen u in
    let one := fun i A l => if (i <? dim) && (A =? 0) then add_fixa dof table (fun a => a) (value i 0) a l
                            else if (i <? dim) && negb (periodic i) && (A =? sizes i - 1) then add_fixa dof table (fun a => a) (value i 1) a l else l in
    one 2 (first 2 + ka) (one 1 (first 1 + ja) (one 0 (first 0 + ia) l)).
  Let fixes := build_fix_colloc dof table (fun a => a) nen value dim periodic sizes first.
  Lemma fixes_fold : fixes = fold_left (fun l u => step u l) (box zero3 nen) [].
  Proof using. unfold fixes, build_fix_colloc. apply fold_ext. intros l [[i j] k]. reflexivity. Qed.

  Lemma colloc_keys : NoDup (keys fixes) /\ forall k, In k (keys fixes) -> 0 <= k < vol nen * dof.
  Proof using All.
    rewrite fixes_fold.
    assert (K : forall L l, (forall u, In u L -> in_box zero3 nen u) -> good_keys dof (vol nen) l -> good_keys dof (vol nen) (fold_left (fun l u => step u l) L l)).
    { induction L as [|u L IH]; intros l HL Hg; [exact Hg|]. cbn [fold_left]. apply IH; [intros; apply HL; right; auto|].
      pose proof (lin_in_range nen u (HL u (or_introl eq_refl))) as HR. destruct u as [[i j] k].
      assert (One : forall d A l, good_keys dof (vol nen) l -> good_keys dof (vol nen)
        (if (d <? dim) && (A =? 0) then add_fixa dof table (fun a => a) (value d 0) (lin nen (i,j,k)) l
         else if (d <? dim) && negb (periodic d) && (A =? sizes d - 1) then add_fixa dof table (fun a => a) (value d 1) (lin nen (i,j,k)) l else l)).
      { intros d A l' Hl. destruct ((d <? dim) && (A =? 0)); [apply fixa_good; auto; apply Hvalue|].
        destruct (_ && _); [apply fixa_good; auto; apply Hvalue|exact Hl]. }
      unfold step. apply One, One, One, Hg. }
    apply (K (box zero3 nen) []); [intros u Hu; apply In_box; exact Hu|]. split; [constructor|]. intros k [].
  Qed.

  (** what a face sets at local node a *)
  Let face_val (a : triple) (c : Z) (cur : option R) (f : Z * Z) : option R :=
    if first (fst f) + coord a (fst f) =? (if snd f =? 0 then 0 else sizes (fst f) - 1) then
      match lookup c (value (fst f) (snd f)) with
      | Some v => Some (match table with Some T => T (c + lin nen a * dof) | None => v end)
      | None => cur
      end else cur.
  Lemma colloc_lookup a c : in_box zero3 nen a -> 0 <= c < dof ->
    lookup (lin nen a * dof + c) fixes = fold_left (face_val a c) (faces dim) None.
  Proof using All.
    intros Ha Hc. rewrite fixes_fold. set (key := lin nen a * dof + c).
    assert (One : forall u d A l, in_box zero3 nen u -> lookup key
        (if (d <? dim) && (A =? 0) then add_fixa dof table (fun a => a) (value d 0) (lin nen u) l
         else if (d <? dim) && negb (periodic d) && (A =? sizes d - 1) then add_fixa dof table (fun a => a) (value d 1) (lin nen u) l else l) =
        if triple_eqb a u then
          (if (d <? dim) && (A =? 0) then match lookup c (value d 0) with Some v => Some (tval dof table (fun a => a) (lin nen a) c v) | None => lookup key l end
           else if (d <? dim) && negb (periodic d) && (A =? sizes d - 1) then match lookup c (value d 1) with Some v => Some (tval dof table (fun a => a) (lin nen a) c v) | None => lookup key l end
           else lookup key l)
        else lookup key l).
    { intros u d A l Hu.
      assert (Eu : triple_eqb a u = (lin nen a =? lin nen u)).
      { destruct (triple_eqb a u) eqn:E; [apply triple_eqb_eq in E; subst; lia|]. symmetry. apply Z.eqb_neq. intros X. apply lin_inj in X; auto. subst.
        rewrite (proj2 (triple_eqb_eq u u) eq_refl) in E. discriminate. }
      rewrite Eu. destruct ((d <? dim) && (A =? 0)); [unfold key; rewrite fixa_lookup by (auto; apply Hvalue)|destruct ((d <? dim) && negb (periodic d) && (A =? sizes d - 1)); [unfold key; rewrite fixa_lookup by (auto; apply Hvalue)|]];
        destruct (lin nen a =? lin nen u) eqn:E; try reflexivity; replace (lin nen u) with (lin nen a) by lia; reflexivity. }
    assert (St : forall u l, in_box zero3 nen u -> lookup key (step u l) = if triple_eqb a u then fold_left (face_val a c) (faces dim) (lookup key l) else lookup key l).
    { intros u l Hu.
      assert (Two : forall d cur, 0 <= d < dim -> fold_left (face_val a c) [(d,0);(d,1)] cur =
          (if (d <? dim) && (first d + coord a d =? 0) then match lookup c (value d 0) with Some v => Some (tval dof table (fun a => a) (lin nen a) c v) | None => cur end
           else if (d <? dim) && negb (periodic d) && (first d + coord a d =? sizes d - 1) then match lookup c (value d 1) with Some v => Some (tval dof table (fun a => a) (lin nen a) c v) | None => cur end
           else cur)).
      { intros d cur Hd. cbn [fold_left]. unfold face_val. cbn [fst snd]. change (0 =? 0) with true. change (1 =? 0) with false. cbv iota.
        pose proof (Hsz d Hd) as S2. rewrite (Hper d Hd). replace (d <? dim) with true by lia. cbn [andb negb]. unfold tval.
        destruct (first d + coord a d =? 0) eqn:E0; [replace (first d + coord a d =? sizes d - 1) with false by lia; reflexivity|].
        destruct (first d + coord a d =? sizes d - 1); reflexivity. }
      assert (Beyond : forall d A (X Y Z' : option R), dim <= d ->
          (if (d <? dim) && (A =? 0) then X else if (d <? dim) && negb (periodic d) && (A =? sizes d - 1) then Y else Z') = Z').
      { intros d A X Y Z' Hd. replace (d <? dim) with false by lia. reflexivity. }
      destruct u as [[i j] k]. unfold step. cbv zeta. rewrite !One by exact Hu. destruct (triple_eqb a (i,j,k)) eqn:E; [|reflexivity].
      apply triple_eqb_eq in E. subst a.
      pose proof (Two 0) as T0. pose proof (Two 1) as T1. pose proof (Two 2) as T2. cbn [coord] in T0, T1, T2.
      assert (D : dim = 1 \/ dim = 2 \/ dim = 3) by lia. destruct D as [D|[D|D]].
      - rewrite (Beyond 2) by lia. rewrite (Beyond 1) by lia. rewrite D at 3. change (faces 1) with [(0,0);(0,1)]. rewrite T0 by lia. reflexivity.
      - rewrite (Beyond 2) by lia. rewrite D at 5. change (faces 2) with ([(0,0);(0,1)] ++ [(1,0);(1,1)]). rewrite fold_left_app, T0, T1 by lia. reflexivity.
      - rewrite D at 7. change (faces 3) with ([(0,0);(0,1)] ++ [(1,0);(1,1)] ++ [(2,0);(2,1)]). rewrite !fold_left_app, T0, T1, T2 by lia. reflexivity. }
    assert (K : forall L l, NoDup L -> (forall u, In u L -> in_box zero3 nen u) ->
       lookup key (fold_left (fun l u => step u l) L l) = if existsb (triple_eqb a) L then fold_left (face_val a c) (faces dim) (lookup key l) else lookup key l).
    { induction L as [|u L IH]; intros l ND HL; [reflexivity|]. cbn [fold_left existsb]. apply NoDup_cons_iff in ND. destruct ND as [N1 N2].
      rewrite IH by (auto; intros; apply HL; right; auto). rewrite St by (apply HL; left; auto). destruct (triple_eqb a u) eqn:E; [|reflexivity]. cbn [orb].
      apply triple_eqb_eq in E. subst u. replace (existsb (triple_eqb a) L) with false; auto. symmetry. apply not_true_iff_false. intros X.
      apply existsb_exists in X. destruct X as (y & Y1 & Y2). apply triple_eqb_eq in Y2. subst. contradiction. }
    rewrite K; [|apply NoDup_box|intros u Hu; apply In_box; exact Hu].
    replace (existsb (triple_eqb a) (box zero3 nen)) with true; [reflexivity|]. symmetry. apply existsb_exists. exists a. split; [apply In_box; auto|apply triple_eqb_eq; reflexivity].
  Qed.
End Lists.

(** * Their effect on the row *)
Section Effect.
  Variable dof : Z.
  Hypothesis Hdof : 1 <= dof.
  Variable n : Z.   (* nen *)
  Variable fix_ : list (Z * R).
  Hypothesis ND : NoDup (keys fix_).
  Hypothesis HK : forall k, In k (keys fix_) -> 0 <= k < n * dof.
  Variable rowmap : Z.
  Variable colmap : Z -> Z.
  Variable a0 : Z.
  Hypothesis H0 : 0 <= a0 < n.
  Hypothesis Huniq : forall a, 0 <= a < n -> (rowmap = colmap a <-> a = a0).

  Lemma key_parts k : 0 <= k < n * dof -> Z.quot k dof = k / dof /\ Z.rem k dof = k mod dof /\ 0 <= k / dof < n /\ 0 <= k mod dof < dof /\ k = k / dof * dof + k mod dof.
  Proof using Hdof.
    intros Hk. clear - Hdof Hk. rewrite Z.quot_div_nonneg, Z.rem_mod_nonneg by lia. pose proof (Z.div_mod k dof ltac:(lia)). pose proof (Z.mod_pos_bound k dof ltac:(lia)).
    repeat split; try lia; [apply Z.div_pos; lia|apply Z.div_lt_upper_bound; lia].
  Qed.

  Lemma col_fix_function_spec U F c : 0 <= c < dof ->
    col_fix_function dof rowmap colmap fix_ (map (fun e => U (fst e)) fix_) F c =
    match lookup (a0 * dof + c) fix_ with Some v => (U (a0 * dof + c)%Z - v)%R | None => F c end.
  Proof using All.
    intros Hc. unfold col_fix_function. revert F. induction fix_ as [|[k v] l IH]; intros F; [reflexivity|].
    cbn [map combine fold_left fst snd]. cbn [keys map fst] in ND, HK. apply NoDup_cons_iff in ND. destruct ND as (N1 & N2).
    destruct (key_parts k (HK k (or_introl eq_refl))) as (Q1 & Q2 & Q3 & Q4 & Q5). rewrite Q1, Q2.
    rewrite IH by (auto; intros; apply HK; right; auto). rewrite lookup_cons.
    destruct (k =? a0 * dof + c) eqn:E.
    - assert (Ek : k = a0 * dof + c) by lia. rewrite (proj2 (lookup_None _ l (a0 * dof + c))) by (rewrite <- Ek; exact N1).
      assert (Hq : k / dof = a0 /\ k mod dof = c) by (apply (cell_inj dof (k/dof) (k mod dof) a0 c Q4 Hc); lia). destruct Hq as [Hq1 Hq2].
      rewrite Hq1, Hq2. replace (rowmap =? colmap a0) with true by (symmetry; apply Z.eqb_eq, Huniq; auto). rewrite upd_same, Ek. reflexivity.
    - destruct (lookup (a0 * dof + c) l); [reflexivity|]. destruct (rowmap =? colmap (k / dof)) eqn:Er; [|reflexivity].
      apply Z.eqb_eq, Huniq in Er; [|exact Q3]. apply upd_other. intros ->. rewrite Er in Q5. lia.
  Qed.

  Lemma col_fix_jacobian_spec shape J c j : 0 <= c < dof -> 0 <= j < n * dof ->
    col_fix_jacobian dof n rowmap colmap fix_ shape J (c * (n * dof) + j) =
    match lookup (a0 * dof + c) fix_ with Some _ => if j mod dof =? c then shape (j / dof) else 0%R | None => J (c * (n * dof) + j) end.
  Proof using All.
    intros Hc Hj. unfold col_fix_jacobian. revert J. induction fix_ as [|[k v] l IH]; intros J; [reflexivity|].
    cbn [fold_left fst snd]. cbn [keys map fst] in ND, HK. apply NoDup_cons_iff in ND. destruct ND as (N1 & N2).
    destruct (key_parts k (HK k (or_introl eq_refl))) as (Q1 & Q2 & Q3 & Q4 & Q5). rewrite Q1, Q2.
    rewrite IH by (auto; intros; apply HK; right; auto). rewrite lookup_cons.
    destruct (k =? a0 * dof + c) eqn:E.
    - assert (Ek : k = a0 * dof + c) by lia. rewrite (proj2 (lookup_None _ l (a0 * dof + c))) by (rewrite <- Ek; exact N1).
      assert (Hq : k / dof = a0 /\ k mod dof = c) by (apply (cell_inj dof (k/dof) (k mod dof) a0 c Q4 Hc); lia). destruct Hq as [Hq1 Hq2].
      rewrite Hq1, Hq2. replace (rowmap =? colmap a0) with true by (symmetry; apply Z.eqb_eq, Huniq; auto). cbv zeta.
      rewrite (row_write dof n Hdof ltac:(lia)) by (auto; lia). rewrite Z.eqb_refl. reflexivity.
    - destruct (lookup (a0 * dof + c) l); [reflexivity|]. destruct (rowmap =? colmap (k / dof)) eqn:Er; [|reflexivity].
      apply Z.eqb_eq, Huniq in Er; [|exact Q3]. cbv zeta. rewrite (row_write dof n Hdof ltac:(lia)) by (auto; lia).
      replace (c =? k mod dof) with false; [reflexivity|]. symmetry. apply Z.eqb_neq. intros ->. rewrite Er in Q5. lia.
  Qed.
End Effect.
