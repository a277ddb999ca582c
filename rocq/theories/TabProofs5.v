(** Fields on an element of the grid: zero at all points only if the coefficients are. *)
From Coq Require Import ZArith List Bool Lia Reals Lra.
From Coq Require Import ZifyBool ZifyNat.
From Coquelicot Require Import Coquelicot.
From Verif Require Import Prelude RealOrd AxisModel AxisSpec SetupModel SetupProofs SetupProps MatProofs GridSpec GridProofs
  BasModel BasSpec BasProofs BasProps ElemModel RuleModel RuleSpec MapModel MapSpec MapProofs MapProofs2 MapProofs3 MapProofs4 TabPoly TabModel TabSpec TabProofs TabProofs2 TabProofs3 TabProofs4.
From Verif Require Import ElemSpec Box.
Import ListNotations.
Open Scope R_scope.

Lemma box_delta n y al : in_box zero3 n al ->
  rsum (fun bt => delta (coord al 0) (coord bt 0) * delta (coord al 1) (coord bt 1) * delta (coord al 2) (coord bt 2) * y bt) (box zero3 n) = y al.
Proof.
  intros Ha. rewrite (rsum_single _ _ _ al); [|apply NoDup_box|apply In_box; auto|].
  - unfold delta. rewrite !Z.eqb_refl. ring.
  - intros bt _ Hn. destruct al as [[a b] c], bt as [[a' b'] c']. unfold delta, coord. zc.
    destruct (Z.eqb_spec a a'), (Z.eqb_spec b b'), (Z.eqb_spec c c'); try ring. exfalso. apply Hn. congruence.
Qed.
Definition set0 (c : Z) (al : triple) : triple := let '(i, j, k) := al in
  if (c =? 0)%Z then (0%Z, j, k) else if (c =? 1)%Z then (i, 0%Z, k) else (i, j, 0%Z).
Lemma box_delta0 n c y al : (0 <= c < 3)%Z -> in_box zero3 n al ->
  let l := fun i => if (i =? c)%Z then delta0 else delta in
  rsum (fun bt => l 0%Z (coord al 0) (coord bt 0) * l 1%Z (coord al 1) (coord bt 1) * l 2%Z (coord al 2) (coord bt 2) * y bt) (box zero3 n) = y al - y (set0 c al).
Proof.
  intros Hc Ha l. assert (Hs : in_box zero3 n (set0 c al)).
  { destruct al as [[i j] k]. unfold in_box, zero3, set0 in *. destruct (c =? 0)%Z; [|destruct (c =? 1)%Z]; lia. }
  rewrite <- (box_delta n y al Ha), <- (box_delta n y (set0 c al) Hs). unfold Rminus.
  match goal with |- _ = ?a + - ?b => replace (a + - b) with (a + (-1) * b) by ring end.
  rewrite <- rsum_scal, <- rsum_plus. apply rsum_ext. intros bt _. destruct al as [[i j] k], bt as [[i' j'] k']. unfold l, delta0, set0.
  assert (C : (c = 0 \/ c = 1 \/ c = 2)%Z) by lia. destruct C as [ -> | [ -> | -> ] ]; unfold coord; zc; ring.
Qed.
Lemma rsum_box_prod (n : Z -> Z) (g : Z -> Z -> R) :
  rsum (fun t => g 0%Z (coord t 0) * g 1%Z (coord t 1) * g 2%Z (coord t 2)) (box zero3 n) =
  rsum (g 0%Z) (zseq 0 (n 0%Z)) * rsum (g 1%Z) (zseq 0 (n 1%Z)) * rsum (g 2%Z) (zseq 0 (n 2%Z)).
Proof.
  rewrite rsum_box. rewrite (rsum_ext _ _ (fun k => (rsum (g 0%Z) (zseq 0 (n 0%Z)) * rsum (g 1%Z) (zseq 0 (n 1%Z))) * g 2%Z k)); [apply rsum_scal|].
  intros k _.
  rewrite (rsum_ext _ _ (fun j => (rsum (g 0%Z) (zseq 0 (n 0%Z)) * g 2%Z k) * g 1%Z j)); [rewrite rsum_scal; ring|].
  intros j _. rewrite (rsum_ext _ _ (fun i => (g 1%Z j * g 2%Z k) * g 0%Z i)); [rewrite rsum_scal; ring|]. intros i _. unfold coord. zc. ring.
Qed.
Lemma rsum_lin1 (w : Z -> Z) (g : Z -> R) : (forall i, (0 <= i < 3)%Z -> (1 <= w i)%Z) ->
  rsum g (zseq 1 (vol w)) = rsum (fun t => g (lin w t + 1)%Z) (box zero3 w).
Proof.
  intros Hw. rewrite <- (rsum_lin w (fun x => g (x+1)%Z) Hw). rewrite <- (rsum_map _ _ g (fun x => x + 1)%Z). rewrite zseq_shift. reflexivity.
Qed.

Section Field.
  Variables dim order : Z.
  Hypothesis Hdim : (1 <= dim <= 3)%Z.
  Hypothesis Horder : (1 <= order)%Z.
  Variable axes : Z -> axis Rord.
  Hypothesis Hax : forall i, (0 <= i < dim)%Z -> axis_ready (axes i) /\ ends_nonempty (ax_p (axes i)) (ax_m (axes i)) (ax_U (axes i)).
  Variable CB : Z -> Z -> R -> Z -> Z -> (Z -> R) -> Z -> Z -> R.
  Variable BT : Z -> btable.
  Definition spans_of (a : axis Rord) : list Z := match ax_span a with Some l => l | None => [] end.
  Let p := fun i => ax_p (axes i).
  Let m := fun i => ax_m (axes i).
  Let U : Z -> Z -> R := fun i => ax_U (axes i).
  Let spans := fun i => spans_of (axes i).
  Let nel := fun d => if (d <? dim)%Z then ax_nel (axes d) else 1%Z.
  Let nen := fun d => if (d <? dim)%Z then (ax_p (axes d) + 1)%Z else 1%Z.
  Hypothesis HT : forall i, (0 <= i < dim)%Z -> table_ok (CB i) (p i) (m i) (U i) (spans i) (BT i).
  Hypothesis H1 : forall i, (dim <= i < 3)%Z -> quad_size (BT i) 0 = 1%Z.

  Lemma fld_p i : (0 <= i < dim)%Z -> (1 <= p i)%Z.
  Proof. intros Hi. destruct (Hax i Hi) as ((l & Hl & ((Hp & _) & _)) & He). unfold p. lia. Qed.
  Lemma fld_p0 i : (0 <= i < dim)%Z -> (0 <= p i)%Z.
  Proof. intros Hi. pose proof (fld_p i Hi). lia. Qed.
  Lemma fld_len i : (0 <= i < dim)%Z -> Z.of_nat (length (spans i)) = ax_nel (axes i).
  Proof. intros Hi. destruct (Hax i Hi) as ((l & Hl & (_ & _ & Hn & _)) & He). unfold spans, spans_of. rewrite Hl. auto. Qed.
  Lemma fld_nth i s : (0 <= i < dim)%Z -> nth (Z.to_nat s) (spans i) 0%Z = span_at (axes i) s.
  Proof. intros Hi. destruct (Hax i Hi) as ((l & Hl & _) & He). unfold spans, spans_of, span_at. rewrite Hl. auto. Qed.
  Lemma fld_ends i : (0 <= i < dim)%Z -> nth 0 (spans i) 0%Z = p i /\ nth (Z.to_nat (Z.of_nat (length (spans i)) - 1)) (spans i) 0%Z = (m i - p i - 1)%Z.
  Proof.
    intros Hi. rewrite fld_len by auto. rewrite fld_nth by auto. change (nth 0 (spans i) 0%Z) with (nth (Z.to_nat 0) (spans i) 0%Z). rewrite fld_nth by auto.
    destruct (Hax i Hi) as ((l & W) & He). destruct (wf_ends (axes i) l W He) as (_ & E1 & E2). auto.
  Qed.
  Lemma fld_ok e f : in_box zero3 nel e -> touches dim nel e f ->
    in_box zero3 (fun d => if (d <? dim)%Z then Z.of_nat (length (spans d)) else 1%Z) e /\
    touches dim (fun d => if (d <? dim)%Z then Z.of_nat (length (spans d)) else 1%Z) e f.
  Proof.
    assert (E : forall d, (0 <= d < 3)%Z -> (if (d <? dim)%Z then Z.of_nat (length (spans d)) else 1%Z) = nel d).
    { intros d Hd. unfold nel. destruct (d <? dim)%Z eqn:L; auto. apply fld_len. lia. }
    intros He Hf. split.
    - destruct e as [[i j] k]. unfold in_box in *. rewrite !E by lia. auto.
    - destruct f as [axis side|]; auto. cbn [touches] in *. destruct Hf as (Hf & Hc). split; auto. rewrite E by lia. auto.
  Qed.
  Lemma fld_elem e i : in_box zero3 nel e -> (0 <= i < dim)%Z ->
    let k := span_at (axes i) (coord e i) in
    nondecreasing (O:=Rord) (m i) (U i) /\ (p i <= k <= m i - p i - 1)%Z /\ U i k < U i (k+1)%Z.
  Proof.
    intros He Hi k. destruct (Hax i Hi) as ((l & W) & En). pose proof W as (Hl & (Hp & Hm & Hnd & Hc) & _).
    pose proof (coord_in nel e i He ltac:(lia)) as C. unfold nel in C. replace (i <? dim)%Z with true in C by lia.
    destruct (span_at_elem (axes i) l W (coord e i) C) as (A & B). apply klt_R in B. unfold m, p, U, k. split; [|split]; auto.
  Qed.

  Definition fld_B (i : Z) (k : Z) (v : R) : Z -> Z -> R := CB i k v (p i) (Z.min (p i) 4) (U i).
  Hypothesis HCB : forall i k v, (0 <= i < dim)%Z -> exists ndu0 a0 ders0 l0 r0, forall o a, (0 <= a <= p i)%Z ->
    fld_B i k v o a = basis_bspline k v (p i) (Z.min (p i) 4) (U i) ndu0 a0 ders0 l0 r0 o a.
  Hypothesis HP : forall i, (0 <= i < dim)%Z -> points_ok (p i) (U i) (spans i) (BT i).
  Local Notation npts e := (tab_npts BT e Interior).
  Local Notation TEN := (tens dim BT).

  Lemma fld_points e i : in_box zero3 nel e -> (0 <= i < dim)%Z ->
    let k := span_at (axes i) (coord e i) in let n := quad_size (BT i) (coord e i) in
    (p i < n)%Z /\ NoDup (map (points_at (BT i) (coord e i)) (zseq 0 n)) /\
    forall q, (0 <= q < n)%Z -> U i k <= points_at (BT i) (coord e i) q <= U i (k+1)%Z.
  Proof.
    intros He Hi k n. destruct (fld_elem e i He Hi) as (_ & _ & HU). fold k in HU.
    pose proof (coord_in nel e i He ltac:(lia)) as C. unfold nel in C. replace (i <? dim)%Z with true in C by lia.
    destruct (HP i Hi (coord e i)) as (P1 & X & X1 & X2 & X3 & X4); [rewrite fld_len; auto|]. rewrite fld_nth in X4 by auto. fold k in X4. fold n in X1, X4, P1.
    split; auto. split.
    - apply NoDup_map_inj; [|apply NoDup_zseq]. intros a b Ha Hb E. apply in_zseq in Ha, Hb. rewrite !X4 in E by lia.
      assert (E' : at0 X a = at0 X b) by (apply (Rmult_eq_reg_r ((U i (k+1)%Z - U i k) / 2)); lra). unfold at0 in E'.
      apply (proj1 (NoDup_nth X 0)) in E'; auto; lia.
    - intros q Hq. rewrite X4 by auto. rewrite List.Forall_forall in X3. assert (B : -1 <= at0 X q <= 1) by (apply X3, nth_In; lia). split; nra.
  Qed.

  Definition fld_C (e : triple) (o : Z -> Z) (i a q : Z) : R :=
    if (i <? dim)%Z then fld_B i (span_at (axes i) (coord e i)) (points_at (BT i) (coord e i) q) (o i) a else 1.
  Lemma tens_C e o t al : in_box zero3 nel e -> in_box zero3 (nq BT e Interior) t ->
    TEN e Interior (lin (nq BT e Interior) t) o al = fld_C e o 0 (coord al 0) (coord t 0) * fld_C e o 1 (coord al 1) (coord t 1) * fld_C e o 2 (coord al 2) (coord t 2).
  Proof.
    intros He Ht. pose proof (fld_ok e Interior He I) as OK.
    assert (K : forall i, (0 <= i < 3)%Z -> fac dim BT e Interior (lin (nq BT e Interior) t) o al i = fld_C e o i (coord al i) (coord t i)).
    { intros i Hi. unfold fac, fld_C. destruct (i <? dim)%Z eqn:L; auto.
      assert (Q : (0 <= lin (nq BT e Interior) t < npts e)%Z).
      { rewrite (npts_vol dim Hdim p m U spans CB BT fld_p0 HT H1 fld_ends e Interior OK). destruct t as [[a b] c]. destruct Ht as (A & B & C). unfold zero3 in *. apply lin_range; lia. }
      rewrite (dval_CB dim Hdim p m U spans CB BT fld_p0 HT H1 fld_ends e Interior _ i _ _ OK Q ltac:(lia)).
      unfold tab_point. rewrite (index_lin dim Hdim p m U spans CB BT fld_p0 HT H1 fld_ends e Interior t i OK Ht ltac:(lia)).
      unfold span_of. rewrite fld_nth by lia. reflexivity. }
    unfold tens. rewrite !K by lia. reflexivity.
  Qed.
  Lemma solves_unit (l : Z -> Z -> R) : l = delta -> solves 1 1 (fun _ _ => 1) l.
  Proof.
    intros ->. apply solves_delta. intros x H a Ha. replace a with 0%Z by lia. specialize (H 0%Z ltac:(lia)). change (zseq 0 1) with [0%Z] in H. unfold rsum in H. simpl in H. lra.
  Qed.
  Lemma C_solves e c i : in_box zero3 nel e -> (0 <= i < 3)%Z -> (-1 <= c < dim)%Z ->
    solves (nen i) (nq BT e Interior i) (fld_C e (ord1 c) i) (if (i =? c)%Z then delta0 else delta).
  Proof.
    intros He Hi Hc. pose proof (fld_ok e Interior He I) as OK. unfold nen, fld_C. destruct (i <? dim)%Z eqn:L.
    - destruct (fld_elem e i He ltac:(lia)) as (E1 & E2 & E3). destruct (fld_points e i He ltac:(lia)) as (P1 & P2 & P3).
      unfold nq, dir_of. cbn [dir_args d_nq].
      destruct (i =? c)%Z eqn:Ec.
      + unfold ord1. rewrite Ec.
        refine (dir_solves_deriv (p i) (m i) (U i) (span_at (axes i) (coord e i)) _ (points_at (BT i) (coord e i)) (fld_B i (span_at (axes i) (coord e i))) _ _ _ _ _ _ _); auto using fld_p0. apply fld_p0; lia. intros v. apply HCB. lia.
      + unfold ord1. rewrite Ec.
        refine (dir_solves_value (p i) (m i) (U i) (span_at (axes i) (coord e i)) _ (points_at (BT i) (coord e i)) (fld_B i (span_at (axes i) (coord e i))) _ _ _ _ _ _ _); auto using fld_p0. apply fld_p0; lia. intros v. apply HCB. lia.
    - rewrite (nq_unit dim Hdim p m U spans CB BT fld_p0 HT H1 fld_ends e Interior i OK ltac:(lia)). apply solves_unit. replace (i =? c)%Z with false by lia. auto.
  Qed.
  Lemma field_solves e c (y : triple -> R) : in_box zero3 nel e -> (-1 <= c < dim)%Z ->
    (forall q, (0 <= q < npts e)%Z -> rsum (fun al => y al * TEN e Interior q (ord1 c) al) (box zero3 nen) = 0) ->
    forall al, in_box zero3 nen al ->
    let l := fun i => if (i =? c)%Z then delta0 else delta in
    rsum (fun bt => l 0%Z (coord al 0) (coord bt 0) * l 1%Z (coord al 1) (coord bt 1) * l 2%Z (coord al 2) (coord bt 2) * y bt) (box zero3 nen) = 0.
  Proof.
    intros He Hc H al Hal l. pose proof (fld_ok e Interior He I) as OK.
    apply (tensor_solves nen (nq BT e Interior) (fld_C e (ord1 c)) l); auto.
    - intros i Hi. apply C_solves; auto.
    - intros t Ht. rewrite <- (H (lin (nq BT e Interior) t)).
      + apply rsum_ext. intros bt _. rewrite tens_C by auto. reflexivity.
      + rewrite (npts_vol dim Hdim p m U spans CB BT fld_p0 HT H1 fld_ends e Interior OK). destruct t as [[a b] d]. destruct Ht as (A & B & D). unfold zero3 in *. apply lin_range; lia.
  Qed.
  (** A field that is zero at all points of an element has zero coefficients there. *)
  Lemma field_zero e (y : triple -> R) : in_box zero3 nel e ->
    (forall q, (0 <= q < npts e)%Z -> rsum (fun al => y al * TEN e Interior q (fun _ => 0%Z) al) (box zero3 nen) = 0) ->
    forall al, in_box zero3 nen al -> y al = 0.
  Proof.
    intros He H al Hal. rewrite <- (box_delta nen y al Hal). apply (field_solves e (-1) y He ltac:(lia)); auto.
  Qed.
  (** A field whose derivatives are zero at all points of an element has constant coefficients there. *)
  Lemma field_const e (y : triple -> R) : in_box zero3 nel e ->
    (forall q c, (0 <= q < npts e)%Z -> (0 <= c < dim)%Z -> rsum (fun al => y al * TEN e Interior q (ord1 c) al) (box zero3 nen) = 0) ->
    forall al, in_box zero3 nen al -> y al = y (0,0,0)%Z.
  Proof.
    intros He H.
    assert (K : forall c al, (0 <= c < 3)%Z -> in_box zero3 nen al -> y al = y (set0 c al)).
    { intros c al Hc Hal. destruct (Z_lt_dec c dim) as [L|L].
      - apply Rminus_diag_uniq. etransitivity; [symmetry; exact (box_delta0 nen c y al Hc Hal)|]. refine (field_solves e c y He _ _ al Hal); [lia|]. intros; apply H; auto; lia.
      - f_equal. destruct al as [[i j] k]. destruct Hal as (A & B & D). unfold zero3, nen in *. unfold set0.
        assert (C : (c = 1 \/ c = 2)%Z) by lia. destruct C as [ -> | -> ]; zc.
        + replace (1 <? dim)%Z with false in B by lia. f_equal. f_equal. lia.
        + replace (2 <? dim)%Z with false in D by lia. f_equal. lia. }
    intros al Hal. rewrite (K 0%Z al) by (auto; lia).
    assert (S : forall c b, in_box zero3 nen b -> in_box zero3 nen (set0 c b)).
    { intros c [[i j] k] Hb. unfold in_box, zero3, set0 in *. destruct (c =? 0)%Z; [|destruct (c =? 1)%Z]; lia. }
    rewrite (K 1%Z) by (auto; lia). rewrite (K 2%Z) by (auto; lia). f_equal. destruct al as [[i j] k]. reflexivity.
  Qed.

  (** ** Values of the functions of the element *)
  Lemma tens_pos e q al : in_box zero3 nel e -> (0 <= q < npts e)%Z -> in_box zero3 nen al -> 0 <= TEN e Interior q (fun _ => 0%Z) al.
  Proof.
    intros He Hq Hal. pose proof (fld_ok e Interior He I) as OK.
    assert (K : forall i, (0 <= i < 3)%Z -> 0 <= fac dim BT e Interior q (fun _ => 0%Z) al i).
    { intros i Hi. unfold fac. destruct (i <? dim)%Z eqn:L; [|lra].
      rewrite (dval_CB dim Hdim p m U spans CB BT fld_p0 HT H1 fld_ends e Interior q i _ _ OK Hq ltac:(lia)). unfold span_of. rewrite fld_nth by lia.
      destruct (fld_elem e i He ltac:(lia)) as (E1 & E2 & E3). destruct (fld_points e i He ltac:(lia)) as (P1 & P2 & P3).
      apply (dir_nonneg (p i) (m i) (U i) (span_at (axes i) (coord e i)) (fun _ => 0) (fld_B i (span_at (axes i) (coord e i)))); auto.
      - apply fld_p0; lia.
      - intros v. apply HCB. lia.
      - apply P3. exact (index_range dim Hdim p m U spans CB BT fld_p0 HT H1 fld_ends e Interior q i OK Hq ltac:(lia)).
      - pose proof (coord_in nen al i Hal Hi) as C. unfold nen in C. rewrite L in C. unfold p. lia. }
    unfold tens. repeat apply Rmult_le_pos; apply K; lia.
  Qed.
  Lemma tens_one e q : in_box zero3 nel e -> (0 <= q < npts e)%Z -> rsum (fun al => TEN e Interior q (fun _ => 0%Z) al) (box zero3 nen) = 1.
  Proof.
    intros He Hq. pose proof (fld_ok e Interior He I) as OK.
    set (g := fun i a => if (i <? dim)%Z then dval dim BT e Interior q i 0 a else 1).
    rewrite (rsum_ext _ _ (fun al => g 0%Z (coord al 0) * g 1%Z (coord al 1) * g 2%Z (coord al 2))) by reflexivity.
    rewrite rsum_box_prod.
    assert (K : forall i, (0 <= i < 3)%Z -> rsum (g i) (zseq 0 (nen i)) = 1).
    { intros i Hi. unfold g, nen. destruct (i <? dim)%Z eqn:L; [|change (zseq 0 1) with [0%Z]; unfold rsum; simpl; lra].
      destruct (fld_elem e i He ltac:(lia)) as (E1 & E2 & E3).
      rewrite (rsum_ext _ _ (fun a => fld_B i (span_at (axes i) (coord e i)) (tab_point dim BT e Interior q i) 0%Z a)).
      - apply (dir_unity (p i) (m i) (U i) (span_at (axes i) (coord e i)) (fun _ => 0) (fld_B i (span_at (axes i) (coord e i)))); auto. apply fld_p0; lia. intros v. apply HCB. lia.
      - intros a _. rewrite (dval_CB dim Hdim p m U spans CB BT fld_p0 HT H1 fld_ends e Interior q i _ _ OK Hq ltac:(lia)). unfold span_of. rewrite fld_nth by lia. reflexivity. }
    rewrite !K by lia. ring.
  Qed.

  Variables (rationalW : triple -> option (Z -> R)) (geometryX : triple -> option (Z -> Z -> R)).
  Variables (oldN oldX oldS : triple -> form_visit -> Z -> nders) (oldE : triple -> form_visit -> Z -> inv_map).
  Local Notation shape e q := (tab_shape dim order BT rationalW geometryX oldN oldX oldS oldE e Interior q).
  Local Notation inv e q := (tab_inv dim order BT rationalW geometryX oldN oldX oldS oldE e Interior q).
  Hypothesis HW : forall e W, in_box zero3 nel e -> rationalW e = Some W -> forall a, (1 <= a <= vol nen)%Z -> 0 < W a.

  Lemma fld_nen i : (0 <= i < 3)%Z -> (1 <= nen i)%Z.
  Proof. intros Hi. unfold nen. destruct (i <? dim)%Z eqn:L; [|lia]. pose proof (fld_p i ltac:(lia)). unfold p in *. lia. Qed.
  Lemma fld_lin al : in_box zero3 nen al -> (1 <= lin nen al + 1 <= vol nen)%Z.
  Proof. intros Ha. destruct al as [[a b] c]. destruct Ha as (A & B & C). unfold zero3 in *. pose proof (lin_range nen a b c). lia. Qed.

  Lemma shape_n0 e q al : in_box zero3 nel e -> in_box zero3 nen al ->
    n0 (shape e q) (lin nen al + 1)%Z = match rationalW e with
      | None => TEN e Interior q (fun _ => 0%Z) al
      | Some W => W (lin nen al + 1)%Z * TEN e Interior q (fun _ => 0%Z) al /
          rsum (fun bt => W (lin nen bt + 1)%Z * TEN e Interior q (fun _ => 0%Z) bt) (box zero3 nen)
      end.
  Proof.
    intros He Hal. pose proof (fld_ok e Interior He I) as OK. unfold tab_shape.
    rewrite (tab_all_eq dim order p m U spans CB BT fld_p0 HT H1 fld_ends rationalW geometryX oldN oldX oldS oldE e Interior q OK).
    unfold tabulate.
    assert (B : forall bt, in_box zero3 nen bt -> n0 (basis_funs dim order (nen 0%Z) (nen 1%Z) (tab_rows dim BT e Interior q) (oldN e Interior q)) (lin nen bt + 1)%Z = TEN e Interior q (fun _ => 0%Z) bt).
    { intros bt Hbt. exact (basis_n0 dim order Hdim p m U spans CB BT fld_p0 HT H1 fld_ends rationalW geometryX oldN oldX oldS oldE e Interior q bt Hbt). }
    set (M0 := basis_funs _ _ _ _ _ _) in *. set (n0_ := (nen 0 * nen 1 * nen 2)%Z).
    assert (G : forall M, n0 (snd (fst (match geometryX e with Some C => (M, geometry_map order n0_ C M (oldX e Interior q), shape_functions dim order (inverse_map dim order (geometry_map order n0_ C M (oldX e Interior q)) (oldE e Interior q)) M (oldS e Interior q), inverse_map dim order (geometry_map order n0_ C M (oldX e Interior q)) (oldE e Interior q)) | None => (M, oldX e Interior q, M, oldE e Interior q) end))) = n0 M).
    { intros M. destruct (geometryX e); reflexivity. }
    cbv zeta. fold (p 0%Z) (p 1%Z) (p 2%Z). change (if (0 <? dim)%Z then (p 0 + 1)%Z else 1%Z) with (nen 0%Z). change (if (1 <? dim)%Z then (p 1 + 1)%Z else 1%Z) with (nen 1%Z). change (if (2 <? dim)%Z then (p 2 + 1)%Z else 1%Z) with (nen 2%Z). fold n0_. fold M0. rewrite G.
    destruct (rationalW e) as [W|]; [|apply B; auto].
    rewrite (rat0 order n0_ W (fun _ : pt => M0) (fun _ => 0)). rewrite B by auto. f_equal. f_equal.
    change n0_ with (vol nen). rewrite (rsum_lin1 nen) by apply fld_nen. apply rsum_ext. intros bt Hbt. apply In_box in Hbt. rewrite B by auto. reflexivity.
  Qed.

  Lemma values_zero e (y : triple -> R) : in_box zero3 nel e ->
    (forall q, (0 <= q < npts e)%Z -> rsum (fun al => y al * n0 (shape e q) (lin nen al + 1)%Z) (box zero3 nen) = 0) ->
    forall al, in_box zero3 nen al -> y al = 0.
  Proof.
    intros He H. destruct (rationalW e) as [W|] eqn:EW.
    - intros al Hal. pose proof (HW e W He EW _ (fld_lin al Hal)) as P.
      enough (y al * W (lin nen al + 1)%Z = 0) by (apply Rmult_integral in H0; destruct H0; auto; lra).
      revert al Hal P. intros al Hal _. apply (field_zero e (fun al => y al * W (lin nen al + 1)%Z) He); auto.
      intros q Hq. specialize (H q Hq).
      set (W0 := rsum (fun bt => W (lin nen bt + 1)%Z * TEN e Interior q (fun _ => 0%Z) bt) (box zero3 nen)).
      assert (W0p : W0 <> 0).
      { intros HZ. assert (Z' : forall bt, In bt (box zero3 nen) -> W (lin nen bt + 1)%Z * TEN e Interior q (fun _ => 0%Z) bt = 0).
        { apply (rsum_nonneg_zero (fun bt => W (lin nen bt + 1)%Z * TEN e Interior q (fun _ => 0%Z) bt)); [|exact HZ]. intros bt Hbt. apply In_box in Hbt. apply Rmult_le_pos; [apply Rlt_le, (HW e W He EW); apply fld_lin; auto|apply tens_pos; auto]. }
        pose proof (tens_one e q He Hq) as O. rewrite rsum_zero in O; [lra|].
        intros bt Hbt. pose proof (Z' bt Hbt) as K. apply In_box in Hbt. apply Rmult_integral in K. destruct K as [K|K]; auto. pose proof (HW e W He EW _ (fld_lin bt Hbt)). lra. }
      apply (Rmult_eq_reg_r (/ W0)); [|apply Rinv_neq_0_compat; auto]. rewrite Rmult_0_l. rewrite <- H. rewrite rsum_mult_r. apply rsum_ext. intros bt Hbt. apply In_box in Hbt.
      rewrite shape_n0 by auto. rewrite EW. fold W0. unfold Rdiv. ring.
    - intros al Hal. apply (field_zero e y He); auto. intros q Hq. rewrite <- (H q Hq). apply rsum_ext. intros bt Hbt. apply In_box in Hbt. rewrite shape_n0 by auto. rewrite EW. auto.
  Qed.

  Lemma shape_n1 e q al c : in_box zero3 nel e -> in_box zero3 nen al -> rationalW e = None -> (0 <= c < dim)%Z ->
    n1 (shape e q) (c+1)%Z (lin nen al + 1)%Z = match geometryX e with
      | None => TEN e Interior q (ord1 c) al
      | Some _ => rsum (fun k => TEN e Interior q (ord1 (k-1)) al * e1 (inv e q) (c+1)%Z k) (zseq 1 dim)
      end.
  Proof.
    intros He Hal EW Hc. pose proof (fld_ok e Interior He I) as OK. unfold tab_shape, tab_inv.
    rewrite (tab_all_eq dim order p m U spans CB BT fld_p0 HT H1 fld_ends rationalW geometryX oldN oldX oldS oldE e Interior q OK).
    unfold tabulate. rewrite EW. cbv zeta. 
    pose proof (basis_n1 dim order Hdim Horder p m U spans CB BT fld_p0 HT H1 fld_ends rationalW geometryX oldN oldX oldS oldE e Interior q al) as B. cbv zeta in B.
    unfold tab_basis in B. destruct (geometryX e) as [X|]; cbn [fst snd].
    - rewrite shf1 by auto. apply rsum_ext. intros k Hk. apply in_zseq in Hk. f_equal. replace k with (k - 1 + 1)%Z at 1 by lia. apply B; auto. lia.
    - apply B; auto.
  Qed.

  Hypothesis HX : forall e q, in_box zero3 nel e -> geometryX e <> None -> (0 <= q < npts e)%Z -> 0 < e_det (inv e q).

  Lemma inv_e1 e q X : in_box zero3 nel e -> geometryX e = Some X ->
    exists F, e_det (inv e q) = determinant dim F /\ e1 (inv e q) = inverse dim (determinant dim F) F.
  Proof.
    intros He EX. pose proof (fld_ok e Interior He I) as OK. unfold tab_inv.
    rewrite (tab_all_eq dim order p m U spans CB BT fld_p0 HT H1 fld_ends rationalW geometryX oldN oldX oldS oldE e Interior q OK).
    unfold tabulate. rewrite EX. cbv zeta. cbn [snd]. unfold inverse_map. cbn [e_det e1]. replace (order <? 1)%Z with false by lia. eexists. split; reflexivity.
  Qed.

  Lemma grads_const e (y : triple -> R) : in_box zero3 nel e -> rationalW e = None ->
    (forall q c, (0 <= q < npts e)%Z -> (0 <= c < dim)%Z -> rsum (fun al => y al * n1 (shape e q) (c+1)%Z (lin nen al + 1)%Z) (box zero3 nen) = 0) ->
    forall al, in_box zero3 nen al -> y al = y (0,0,0)%Z.
  Proof.
    intros He EW H. apply (field_const e y He). intros q c Hq Hc. destruct (geometryX e) as [X|] eqn:EX.
    - set (g := fun k => rsum (fun al => y al * TEN e Interior q (ord1 (k-1)) al) (box zero3 nen)).
      destruct (inv_e1 e q X He EX) as (F & ED & EI).
      assert (D : determinant dim F <> 0) by (rewrite <- ED; pose proof (HX e q He ltac:(congruence) Hq); lra).
      assert (G : forall i, (1 <= i <= dim)%Z -> rsum (fun k => g k * inverse dim (determinant dim F) F i k) (zseq 1 dim) = 0).
      { intros i Hi. rewrite <- (H q (i-1)%Z Hq ltac:(lia)). unfold g.
        rewrite (rsum_ext _ _ (fun k => rsum (fun al => y al * TEN e Interior q (ord1 (k-1)) al * inverse dim (determinant dim F) F i k) (box zero3 nen))) by (intros; rewrite rsum_mult_r; auto).
        rewrite rsum_comm. apply rsum_ext. intros al Hal. apply In_box in Hal. rewrite shape_n1 by (auto; lia). rewrite EX. rewrite <- rsum_scal. apply rsum_ext. intros k Hk. rewrite EI. replace (i - 1 + 1)%Z with i by lia. ring. }
      assert (E : g (c+1)%Z = 0).
      { transitivity (rsum (fun j => g j * kd j (c+1)) (zseq 1 dim)).
        - rewrite (rsum_single _ _ _ (c+1)%Z); [unfold kd; rewrite Z.eqb_refl; ring|apply NoDup_zseq|apply in_zseq; lia|]. intros j _ Hj. unfold kd. replace (j =? c+1)%Z with false by lia. ring.
        - rewrite (rsum_ext _ _ (fun j => rsum (fun k => g j * (inverse dim (determinant dim F) F k j * F (c+1)%Z k)) (zseq 1 dim))).
          + rewrite rsum_comm. apply rsum_zero. intros k Hk. apply in_zseq in Hk. rewrite (rsum_ext _ _ (fun j => (g j * inverse dim (determinant dim F) F k j) * F (c+1)%Z k)) by (intros; ring).
            rewrite <- rsum_mult_r. rewrite G by lia. ring.
          + intros j Hj. apply in_zseq in Hj. rewrite rsum_scal. f_equal.
            transitivity (kd (c+1) j); [unfold kd; rewrite Z.eqb_sym; auto|]. rewrite <- (inverse_r dim F (c+1) j) by (auto; lia). apply rsum_ext. intros; ring. }
      unfold g in E. replace (c + 1 - 1)%Z with c in E by lia. exact E.
    - rewrite <- (H q c Hq Hc). apply rsum_ext. intros al Hal. apply In_box in Hal. rewrite shape_n1 by auto. rewrite EX. auto.
  Qed.
End Field.
