(** Property theorems about the parallel layout: C12, C13, C14, C57, C58. *)
From Coq Require Import ZArith List Bool Lia Reals Lra.
From Coq Require Import ZifyBool ZifyNat.
From Verif Require Import Prelude RealOrd AxisModel AxisSpec AxisProofs AxisInitModel AxisInitSpec AxisInitProofs AxisProofs2
  PartModel PartSpec PartProofs SetupModel GridSpec GridProofs SetupProofs CollocProofs.
Import ListNotations.
Open Scope Z_scope.

(** An axis whose stored fields are consistent ([axis_wf] is in AxisSpec.v). *)
Definition axis_ready {O : KnotOrd} (a : axis O) : Prop :=
  exists l, ax_span a = Some l /\
    axis_wf (ax_periodic a) (ax_p a) (ax_m a) (ax_U a) (ax_nnp a) (ax_nel a) l.

(** IGAAxisSetKnots, IGAAxisInitBreaks and IGAAxisInitUniform leave such axes. *)
Theorem C12_axes_are_ready :
  (forall (O : KnotOrd) (a a' : axis O) m U, axis_set_knots m U a = (Ok, a') -> axis_ready a') /\
  (forall nu u C U0 (a a' : axis Rord), axis_init_breaks nu u C U0 a = (Ok, a') ->
     axis_ready a' /\ ends_nonempty (O:=Rord) (ax_p a') (ax_m a') (ax_U a')) /\
  (forall N Ui Uf C U0 (a a' : axis Rord), axis_init_uniform N Ui Uf C U0 a = (Ok, a') ->
     axis_ready a' /\ ends_nonempty (O:=Rord) (ax_p a') (ax_m a') (ax_U a')).
Proof.
  assert (HG : forall p C r brk per (a : axis Rord), 1 <= p -> 0 <= C < p -> 1 <= r ->
     (forall b, 0 <= b < r -> (brk b < brk (b+1)%Z)%R) -> good_axis p C r brk per a ->
     axis_ready a /\ ends_nonempty (O:=Rord) (ax_p a) (ax_m a) (ax_U a)).
  { intros p C r brk per a Hp HC Hr Hbrk [G1 G2 G3 G4 G5 G6 G7 G8 G9 G10 G11].
    destruct G6 as (l & L1 & L2 & L3 & L4). split.
    - exists l. split; auto. rewrite G1, G2. split; [auto|]. split; [auto|]. split; [lia|].
      rewrite G8. destruct G4 as (V1 & V2 & V3 & V4). rewrite <- end_multiplicity by auto.
      unfold axis_nnp. replace (ax_m a - p - 1 + 1) with (ax_m a - p) by lia. destruct per; lia.
    - rewrite G2. split; apply (proj2 (klt_R _ _)).
      + destruct (L4 0 ltac:(lia)) as (_ & E1 & E2).
        replace (p + 0 * (p-C)) with p in * by lia. rewrite E1, E2. apply Hbrk; lia.
      + destruct (L4 (r-1) ltac:(lia)) as (_ & E1 & E2).
        assert (Em : ax_m a - p - 1 = p + (r-1)*(p-C)) by (rewrite G3; ring).
        assert (Em' : ax_m a - p = p + (r-1)*(p-C) + 1) by lia. rewrite Em, Em', E1, E2. apply Hbrk; lia. }
  split; [|split].
  - intros O a a' m U H. exact (set_knots_wf a a' m U H).
  - intros nu u C U0 a a' H. pose proof (init_breaks_spec nu u C U0 a) as K. rewrite H in K.
    cbv zeta in K. destruct K as (K1 & _ & K3). destruct (proj1 K1 eq_refl) as (A & B & D & E).
    eapply HG; [| | | |apply K3; reflexivity]; try lia.
    intros b Hb. replace b with (b+1-1) at 1 by lia. apply D. lia.
  - intros N Ui Uf C U0 a a' H. pose proof (init_uniform_spec N Ui Uf C U0 a) as K. rewrite H in K.
    cbv zeta in K. destruct K as (K1 & _ & K3). destruct (proj1 K1 eq_refl) as (A & B & D & E).
    eapply HG; [| | | |apply K3; reflexivity]; try lia.
    intros b Hb. cbv beta. rewrite plus_IZR.
    assert (0 < IZR N)%R by (apply IZR_lt; lia).
    assert (IZR b / IZR N < (IZR b + 1) / IZR N)%R.
    { unfold Rdiv. apply Rmult_lt_compat_r; [apply Rinv_0_lt_compat; auto|lra]. }
    nra.
Qed.
Print Assumptions C12_axes_are_ready.

(** * C12 *)
(** [stage1 ... size r dim axes user = (Ok, Some ly)]: IGASetUp on rank [r] of [size] succeeded and
    computed the ranges [ly].  Node x (coordinates x 0, ..., x (dim-1)) is owned by exactly one rank. *)
Theorem C12_every_node_owned_once :
  forall (O : KnotOrd) (g2 : Z -> Z -> Z -> Z) (g3 : Z -> Z -> Z -> Z -> Z)
         (maxint size r0 dim : Z) (axes : Z -> axis O) (user : list Z) (ly0 : layout),
  (forall a b c, 0 <= g2 a b c) -> (forall a b c d, 0 <= g3 a b c d) ->
  (forall i, 0 <= i < dim -> axis_ready (axes i) /\ ends_nonempty (ax_p (axes i)) (ax_m (axes i)) (ax_U (axes i))) ->
  stage1 g2 g3 maxint size r0 dim axes user = (Ok, Some ly0) ->
  (* all ranks succeed, with nonempty owned ranges inside 0..nnp-1 *)
  (forall r, 0 <= r < size -> exists ly, stage1 g2 g3 maxint size r dim axes user = (Ok, Some ly) /\
     forall i, 0 <= i < dim -> r_size (ly_node ly i) = ax_nnp (axes i) /\
       0 <= r_lstart (ly_node ly i) /\ 1 <= r_lwidth (ly_node ly i) /\
       r_lstart (ly_node ly i) + r_lwidth (ly_node ly i) <= ax_nnp (axes i)) /\
  (forall x : Z -> Z, (forall i, 0 <= i < dim -> 0 <= x i < ax_nnp (axes i)) ->
     exists! r, 0 <= r < size /\ exists ly, stage1 g2 g3 maxint size r dim axes user = (Ok, Some ly) /\
       forall i, 0 <= i < dim ->
         r_lstart (ly_node ly i) <= x i < r_lstart (ly_node ly i) + r_lwidth (ly_node ly i)).
Proof.
  intros O g2 g3 maxint size r0 dim axes user ly0 H2 H3 Hax H.
  assert (HT : forall i P, 0 <= i < dim -> 1 <= P <= ax_nel (axes i) ->
     tiles P (ax_nnp (axes i)) (fun c => r_lstart (nrange P (axes i) c)) (fun c => r_lwidth (nrange P (axes i) c)) /\
     forall c, 0 <= c < P -> 1 <= r_lwidth (nrange P (axes i) c)).
  { intros i P Hi HP. destruct (Hax i Hi) as [(l & L) He].
    destruct (node_tiles (axes i) l P L He HP) as (A & B & _). auto. }
  split.
  - destruct (stage1_spec g2 g3 H2 H3 _ _ _ _ _ _ _ H) as (n & Hn & HL & Hdim & Hz & Hr & HP & Hall).
    intros r Hr'. eexists. split; [apply Hall; auto|].
    intros i Hi. unfold layout_of; cbn [ly_node]. replace (i <? dim) with true by lia.
    specialize (HP i Hi). destruct (HT i _ Hi HP) as [T1 T2].
    pose proof (pad_coords n r i Hn ltac:(lia) ltac:(lia)) as Hc.
    pose proof (tiles_bounds _ _ _ _ T1 _ Hc) as TB. specialize (T2 _ Hc). cbv beta in TB.
    fold (es (pad 1 n i) (axes i) (pad 0 (rank_coords n r) i)). fold (ew (pad 1 n i) (axes i) (pad 0 (rank_coords n r) i)).
    fold (nrange (pad 1 n i) (axes i) (pad 0 (rank_coords n r) i)).
    split; [reflexivity|]. lia.
  - intros x Hx.
    pose proof (stage1_unique g2 g3 H2 H3 maxint size dim axes user r0 ly0 H
      (fun ly i => (r_lstart (ly_node ly i), r_lwidth (ly_node ly i)))
      (fun i => ax_nnp (axes i))
      (fun i P c => r_lstart (nrange P (axes i) c)) (fun i P c => r_lwidth (nrange P (axes i) c))) as K.
    cbn [fst snd] in K. apply K; auto.
    + intros n c i Hi. unfold layout_of; cbn [ly_node]. replace (i <? dim) with true by lia. reflexivity.
    + intros i P Hi HP. apply HT; auto.
Qed.
Print Assumptions C12_every_node_owned_once.

(** Two quadratic directions: periodic uniform (8 elements) and clamped with repeated knots; 6 processes. *)
Definition ex_axis (per : bool) (m : Z) (U : list Z) : axis Zord :=
  snd (axis_set_knots m (arr 0 U) (@mk_axis Zord per 2 1 (fun _ => 0) 1 1 (Some [0]))).
Definition ex_axes (i : Z) : axis Zord :=
  if i =? 0 then ex_axis true 12 [0;1;2;3;4;5;6;7;8;9;10;11;12]
  else ex_axis false 9 [0;0;0;1;1;2;4;5;5;5].
Lemma ex_axes_ready :
  forall i, 0 <= i < 2 -> axis_ready (ex_axes i) /\ ends_nonempty (ax_p (ex_axes i)) (ax_m (ex_axes i)) (ax_U (ex_axes i)).
Proof.
  intros i Hi. assert (E : i = 0 \/ i = 1) by lia. destruct E as [-> | ->].
  - split; [|split; reflexivity]. apply (set_knots_wf (@mk_axis Zord true 2 1 (fun _ => 0) 1 1 (Some [0])) _ 12 (arr 0 [0;1;2;3;4;5;6;7;8;9;10;11;12])). reflexivity.
  - split; [|split; reflexivity]. apply (set_knots_wf (@mk_axis Zord false 2 1 (fun _ => 0) 1 1 (Some [0])) _ 9 (arr 0 [0;0;0;1;1;2;4;5;5;5])). reflexivity.
Qed.
Example C12_example :
  (forall i, 0 <= i < 2 -> axis_ready (ex_axes i) /\ ends_nonempty (ax_p (ex_axes i)) (ax_m (ex_axes i)) (ax_U (ex_axes i))) /\
  match stage1 exact_g2 exact_g3 (2^31-1) 6 4 2 ex_axes [-1;-1] with
  | (Ok, Some ly) => map (ly_procs ly) [0;1;2] = [3;2;1] /\ map (ly_coord ly) [0;1;2] = [1;1;0] /\
                     map (ly_node ly) [0;1;2] = [mk_range 8 3 3 3 5; mk_range 7 3 4 3 4; mk_range 1 0 1 0 1]
  | _ => False
  end.
Proof.
  split; [exact ex_axes_ready|].
  vm_compute. repeat split.
Qed.

(** * C13 *)
Theorem C13_ghost_range_covers :
  forall (O : KnotOrd) (g2 : Z -> Z -> Z -> Z) (g3 : Z -> Z -> Z -> Z -> Z)
         (maxint size r dim : Z) (axes : Z -> axis O) (user : list Z) (ly : layout),
  (forall a b c, 0 <= g2 a b c) -> (forall a b c d, 0 <= g3 a b c d) ->
  (forall i, 0 <= i < dim -> axis_ready (axes i)) ->
  stage1 g2 g3 maxint size r dim axes user = (Ok, Some ly) ->
  forall i, 0 <= i < dim ->
  let nd := ly_node ly i in
  (* every function active on an element of this process is in the local range *)
  (forall e k A l, ly_elem_start ly i <= e < ly_elem_start ly i + ly_elem_width ly i ->
     ax_span (axes i) = Some l -> nth_error l (Z.to_nat e) = Some k ->
     active (ax_p (axes i)) A k -> r_gstart nd <= A < r_gstart nd + r_gwidth nd) /\
  (* and so is every owned node *)
  (ends_nonempty (ax_p (axes i)) (ax_m (axes i)) (ax_U (axes i)) ->
     forall A, r_lstart nd <= A < r_lstart nd + r_lwidth nd -> r_gstart nd <= A < r_gstart nd + r_gwidth nd).
Proof.
  intros O g2 g3 maxint size r dim axes user ly H2 H3 Hax H i Hi nd.
  destruct (stage1_spec g2 g3 H2 H3 _ _ _ _ _ _ _ H) as (n & Hn & HL & Hdim & Hz & Hr & HP & Hall).
  rewrite (Hall r Hr) in H. inversion H; subst ly. clear H.
  unfold nd, layout_of; cbn [ly_node ly_elem_start ly_elem_width]. replace (i <? dim) with true by lia.
  destruct (Hax i Hi) as (l & L). specialize (HP i Hi).
  pose proof (pad_coords n r i Hn ltac:(lia) ltac:(lia)) as Hc.
  set (P := pad 1 n i) in *. set (c := pad 0 (rank_coords n r) i) in *.
  fold (es P (axes i) c). fold (ew P (axes i) c). fold (nrange P (axes i) c).
  split.
  - intros e k A l' He Hl' Hk HA. assert (l' = l) by (destruct L; congruence). subst l'.
    apply (ghost_covers_closures (axes i) l P c e A L HP Hc He).
    unfold span_at. rewrite Hl'. rewrite (nth_error_nth _ _ 0 Hk). exact HA.
  - intros Hends A HA. destruct (node_tiles (axes i) l P L Hends HP) as (_ & _ & K). specialize (K c Hc). lia.
Qed.
Print Assumptions C13_ghost_range_covers.

(** * C14: without the hypothesis on the end intervals an owned node can be invisible. *)
Theorem C14_owned_nodes_visible_refuted :
  exists (a : axis Zord) (m : Z) (U : Z -> Z) (a' : axis Zord) (ly : layout) (A : Z),
    ax_periodic a = false /\ axis_set_knots m U a = (Ok, a') /\ 1 <= ax_nel a' /\
    stage1 exact_g2 exact_g3 (2^31-1) 1 0 1 (fun _ => a') [-1] = (Ok, Some ly) /\
    let nd := ly_node ly 0 in
    r_lstart nd <= A < r_lstart nd + r_lwidth nd /\ ~ (r_gstart nd <= A < r_gstart nd + r_gwidth nd).
Proof.
  set (a' := snd (axis_set_knots 6 (arr 0 [0;1;2;3;3;4;5]) (@mk_axis Zord false 2 1 (fun _ => 0) 1 1 (Some [0])))).
  exists (@mk_axis Zord false 2 1 (fun _ => 0) 1 1 (Some [0])), 6, (arr 0 [0;1;2;3;3;4;5]), a',
    (layout_of 1 (fun _ => a') [1] [0]), 3.
  split; [reflexivity|]. split; [reflexivity|]. split; [vm_compute; congruence|]. split.
  - unfold stage1.
    assert (E : partition exact_g2 exact_g3 (2^31-1) 1 0 (map (fun _ : Z => ax_nel a') (zseq 0 1)) [-1] = (Ok, [1], [0]))
      by (vm_compute; reflexivity).
    rewrite E. reflexivity.
  - vm_compute. split; [split; congruence|]. intros [_ K]. discriminate K.
Qed.
Print Assumptions C14_owned_nodes_visible_refuted.

(** * C57: the collocation layout *)
(** The model's abscissa is the mean of the p knots U(i+1), ..., U(i+p). *)
Lemma greville_mean i p (U : Z -> R) : 1 <= p -> (IZR p * greville i p U = rsum (fun j => U (i + j)%Z) (zseq 1 p))%R.
Proof.
  intros Hp. rewrite greville_eq by auto.
  assert (E : forall n, 0 <= n -> wsum (fun j => U (i+j+1)%Z) n = rsum (fun j => U (i + j)%Z) (zseq 1 n)).
  { apply (natlike_ind (fun n => wsum (fun j => U (i+j+1)%Z) n = rsum (fun j => U (i + j)%Z) (zseq 1 n))); [reflexivity|].
    intros n Hn IH. unfold Z.succ. rewrite wsum_S, IH, zseq_snoc, rsum_app by auto. f_equal.
    unfold rsum. cbn [map fold_right]. replace (i + n + 1) with (i + (1 + n)) by lia. lra. }
  rewrite E by lia. field. apply not_0_IZR. lia.
Qed.
(** One direction with P processes (IGASetUp distributes the nnp collocation points): the owned ranges
    tile, and the ghosted range holds every function active at an owned Greville point u, which is the mean of the knots U(x+shift+1), ..., U(x+shift+p). *)
Theorem C57_collocation_layout :
  forall (a : axis Rord) (P : Z), axis_ready a -> 1 <= P <= ax_nnp a ->
  let p := ax_p a in let n := ax_m a - p - 1 in let U := ax_U a in
  tiles P (ax_nnp a) (dist_s P (ax_nnp a)) (dist_n P (ax_nnp a)) /\
  forall r, 0 <= r < P -> exists shift nd,
    colloc_node_range a (ax_nnp a) (dist_s P (ax_nnp a) r) (dist_n P (ax_nnp a) r) = Some (shift, nd) /\
    0 <= shift <= p /\ (ax_periodic a = false -> shift = 0) /\
    r_lstart nd = dist_s P (ax_nnp a) r /\ r_lwidth nd = dist_n P (ax_nnp a) r /\ 1 <= r_lwidth nd /\
    (forall x k u, r_lstart nd <= x < r_lstart nd + r_lwidth nd ->
       (IZR p * u = rsum (fun j => U (x + shift + j)%Z) (zseq 1 p))%R -> find_span (O:=Rord) n p u U = Some k ->
       forall A, active p A k -> r_gstart nd <= A - shift < r_gstart nd + r_gwidth nd) /\
    (ends_nonempty (O:=Rord) p (ax_m a) U -> forall x, r_lstart nd <= x < r_lstart nd + r_lwidth nd ->
       r_gstart nd <= x < r_gstart nd + r_gwidth nd).
Proof.
  intros a P (l & L) HP p n U. split; [apply dist_tiles; lia|].
  intros r Hr. destruct (colloc_range_spec a l P r L HP Hr) as (rg & E & A & B & C & D & F & G).
  destruct (shift_bounds a l L) as (S1 & S2 & S3 & S4 & S5).
  exists ((n + 1 - ax_nnp a)/2), rg. split; [exact E|].
  split; [fold p n in S1, S2; lia|]. split; [exact S5|]. split; [auto|]. split; [auto|]. split; [auto|].
  split; [|intros He x Hx; specialize (G He); lia].
  intros x k u Hx Hu Hk. apply (F x k Hx).
  assert (Hp : 1 <= p) by (destruct L as [? HV]; apply HV).
  rewrite <- Hk. f_equal. apply Rmult_eq_reg_l with (IZR p); [|apply not_0_IZR; lia].
  rewrite greville_mean by exact Hp. symmetry. exact Hu.
Qed.
Print Assumptions C57_collocation_layout.

(** * C58: in collocation, is every owned geometry node locally visible? *)
Definition ex_breaks (b : Z) : R := if b =? 0 then 0%R else if b =? 1 then 1%R else if b =? 2 then 101%R else 102%R.

Theorem C58_collocation_geometry_visible_refuted :
  exists (a a' : axis Rord) (shift : Z) (nd : range),
    axis_init_breaks 4 ex_breaks (-1) (fun _ => 0%R) a = (Ok, a') /\ ax_periodic a' = true /\ ax_p a' = 4 /\
    colloc_node_range a' (ax_nnp a') 0 (ax_nnp a') = Some (shift, nd) /\
    let g := colloc_geom_range a' 1 0 shift nd in
    r_lstart g = 0 /\ 0 < r_lwidth g /\ 0 < r_gstart g.
Proof.
  exists (@mk_axis Rord true 4 1 (fun _ => 0%R) 1 1 (Some [0])).
  pose proof (init_breaks_spec 4 ex_breaks (-1) (fun _ => 0%R) (@mk_axis Rord true 4 1 (fun _ => 0%R) 1 1 (Some [0]))) as HS.
  destruct (axis_init_breaks 4 ex_breaks (-1) (fun _ : Z => 0%R)
              (@mk_axis Rord true 4 1 (fun _ => 0%R) 1 1 (Some [0]))) as [st a'] eqn:E.
  cbn [ax_p ax_periodic] in HS. cbv zeta in HS. change (eff_C (-1) 4) with 3 in HS. change (4 - 1) with 3 in HS.
  destruct HS as (H1 & _ & H3).
  assert (Hok : st = Ok).
  { apply H1. split; [lia|]. split; [lia|]. split; [|lia].
    intros i Hi. assert (C : i = 1 \/ i = 2 \/ i = 3) by lia.
    destruct C as [->|[->| ->]]; cbv -[Rlt IZR]; apply IZR_lt; lia. }
  subst st. specialize (H3 eq_refl). destruct H3 as [G1 G2 G3 G4 G5 G6 G7 G8 G9 G10 G11].
  destruct G6 as (l & L1 & L2 & L3 & L4).
  assert (Em : ax_m a' = 11) by (rewrite G3; lia).
  assert (En : ax_nnp a' = 3) by (rewrite G7; lia).
  assert (HU4 : ax_U a' 4 = 0%R) by (destruct (L4 0 ltac:(lia)) as (_ & X & _); exact X).
  assert (HU5 : ax_U a' 5 = 1%R) by (destruct (L4 1 ltac:(lia)) as (_ & X & _); exact X).
  assert (HU6 : ax_U a' 6 = 101%R) by (destruct (L4 2 ltac:(lia)) as (_ & X & _); exact X).
  assert (HU3 : ax_U a' 3 = (-1)%R).
  { pose proof (G10 eq_refl 3 ltac:(lia) ltac:(lia)) as X. rewrite En in X.
    replace (3+3) with 6 in X by lia. rewrite HU6 in X. cbv -[Rplus Rminus IZR] in X.
    assert (X' : (101 = ax_U a' 3 + (102 - 0))%R) by exact X. Rgoal. lra. }
  exists a'. 
  assert (Hwf : wf a' l).
  { split; auto. rewrite G1, G2. split; [auto|]. split; [auto|]. split; [lia|].
    rewrite G8. destruct G4 as (V1 & V2 & V3 & V4). rewrite <- end_multiplicity by auto.
    unfold axis_nnp. replace (ax_m a' - 4 - 1 + 1) with (ax_m a' - 4) by lia. lia. }
  destruct (colloc_range_spec a' l 1 0 Hwf ltac:(lia) ltac:(lia)) as (rg & E' & A & B & C & D & F & G).
  unfold cn in E'. replace (dist_s 1 (ax_nnp a') 0) with 0 in * by (rewrite En; reflexivity).
  replace (dist_n 1 (ax_nnp a') 0) with (ax_nnp a') in * by (rewrite En; reflexivity).
  eexists _, rg. split; [reflexivity|]. split; [exact G1|]. split; [exact G2|]. split; [exact E'|].
  assert (Hsh : (ax_m a' - ax_p a' - 1 + 1 - ax_nnp a') / 2 = 2) by (rewrite Em, G2, En; reflexivity).
  rewrite Hsh in *.
  assert (Hgs : -1 <= r_gstart rg).
  { unfold colloc_node_range in E'. rewrite Hsh in E'.
    destruct (find_span (O:=Rord) (ax_m a' - ax_p a' - 1) (ax_p a') (greville (0+2) (ax_p a') (ax_U a')) (ax_U a')) as [k1|] eqn:K1; [|discriminate].
    destruct (find_span (O:=Rord) (ax_m a' - ax_p a' - 1) (ax_p a') (greville (0+ax_nnp a'-1+2) (ax_p a') (ax_U a')) (ax_U a')) as [k2|] eqn:K2; [|discriminate].
    inversion E'; subst rg. cbn [r_gstart].
    assert (Hgr : greville (0+2) (ax_p a') (ax_U a') = (101/4)%R).
    { rewrite G2, greville_eq by lia.
      replace (wsum (fun j => ax_U a' (0 + 2 + j + 1)) 4) with
        (0 + ax_U a' (0+2+0+1) + ax_U a' (0+2+(0+1)+1) + ax_U a' (0+2+(0+1+1)+1) + ax_U a' (0+2+(0+1+1+1)+1))%R.
      2:{ change 4 with (0+1+1+1+1). rewrite !wsum_S, wsum_0 by lia. reflexivity. }
      replace (0+2+0+1) with 3 by lia. replace (0+2+(0+1)+1) with 4 by lia.
      replace (0+2+(0+1+1)+1) with 5 by lia. replace (0+2+(0+1+1+1)+1) with 6 by lia.
      rewrite HU3, HU4, HU5, HU6. field. }
    rewrite G2, Em in *. apply (find_span_cases 4 11 (ax_U a') G4) in K1. destruct K1 as [KB KC].
    rewrite Hgr in KC.
    assert (k1 <> 4).
    { intros ->. destruct KC as [[Y _]|[(_ & _ & Y)|(_ & _ & Y)]].
      - assert (Y' : (101/4 <= 0)%R) by (rewrite <- HU4; exact Y). lra.
      - lia.
      - assert (Y' : (101/4 < 1)%R) by (rewrite <- HU5; exact Y). lra. }
    lia. }
  unfold colloc_geom_range. change (0 =? 1 - 1) with true. change (0 =? 0) with true.
  cbv zeta. cbn [r_lstart r_lwidth r_gstart]. rewrite B, Em, G2. clear - Hgs. lia.
Qed.
Print Assumptions C58_collocation_geometry_visible_refuted.

(** It holds on non-periodic axes. *)
Theorem C58_collocation_geometry_visible_partial :
  forall (a : axis Rord) (P r shift : Z) (nd : range), axis_ready a ->
  ends_nonempty (O:=Rord) (ax_p a) (ax_m a) (ax_U a) -> ax_periodic a = false ->
  1 <= P <= ax_nnp a -> 0 <= r < P ->
  colloc_node_range a (ax_nnp a) (dist_s P (ax_nnp a) r) (dist_n P (ax_nnp a) r) = Some (shift, nd) ->
  let g := colloc_geom_range a P r shift nd in
  forall x, r_lstart g <= x < r_lstart g + r_lwidth g -> r_gstart g <= x < r_gstart g + r_gwidth g.
Proof.
  intros a P r shift nd (l & L) He Hper HP Hr E g x Hx.
  destruct (colloc_range_spec a l P r L HP Hr) as (rg & E' & A & B & C & D & F & G).
  unfold cn in E'. rewrite E' in E. inversion E; subst nd. destruct (shift_bounds a l L) as (S1 & S2 & S3 & S4 & S5).
  specialize (S5 Hper). rewrite S5 in *. specialize (G He).
  unfold g, colloc_geom_range in *. 
  destruct (r =? 0), (r =? P - 1); cbn [r_lstart r_lwidth r_gstart r_gwidth] in *; lia.
Qed.
Print Assumptions C58_collocation_geometry_visible_partial.
