(** Tensor products of the tables on an element. *)
From Coq Require Import ZArith List Bool Lia Reals Lra Permutation Sorted.
From Coq Require Import ZifyBool ZifyNat.
From Verif Require Import Prelude RealOrd AxisModel AxisSpec Box GridSpec GridProofs ElemModel ElemSpec RuleModel RuleSpec
  MapModel MapSpec TabModel TabSpec TabProofs2.
From Verif Require Import ElemSpec Box.
Import ListNotations.
Open Scope Z_scope.

(** Decide comparisons of numerals. *)
Ltac zc1 t := let r := eval vm_compute in t in match r with true => change t with true | false => change t with false end.
Ltac zc := repeat (cbv beta iota;
  match goal with
  | |- context [Z.eqb ?a ?b] => zc1 (Z.eqb a b)
  | |- context [Z.ltb ?a ?b] => zc1 (Z.ltb a b)
  end); cbv beta iota.
Lemma rsum_box (w : Z -> Z) (g : triple -> R) :
  rsum g (box zero3 w) = rsum (fun k => rsum (fun j => rsum (fun i => g (i, j, k)) (zseq 0 (w 0))) (zseq 0 (w 1))) (zseq 0 (w 2)).
Proof.
  unfold box, zero3. rewrite rsum_flat_map. apply rsum_ext. intros k _. rewrite rsum_flat_map. apply rsum_ext. intros j _. rewrite rsum_map. reflexivity.
Qed.
Lemma rsum_lin (w : Z -> Z) (g : Z -> R) : (forall i, 0 <= i < 3 -> 1 <= w i) ->
  rsum g (zseq 0 (vol w)) = rsum (fun t => g (lin w t)) (box zero3 w).
Proof.
  intros Hw. rewrite <- (rsum_map _ _ g (lin w)). apply rsum_perm. apply NoDup_Permutation.
  - apply NoDup_zseq.
  - apply NoDup_map_inj; [|apply NoDup_box]. intros x y Hx Hy E. apply In_box in Hx, Hy. apply (lin_inj w); auto.
  - intros x. rewrite in_zseq, in_map_iff. pose proof (Hw 0 ltac:(lia)). pose proof (Hw 1 ltac:(lia)). pose proof (Hw 2 ltac:(lia)). split.
    + intros Hx. exists (unlin w x). destruct (lin_unlin w x) as (A & B); try lia. split; auto. apply In_box; auto.
    + intros (t & <- & Ht). apply In_box in Ht. destruct t as [[i j] k]. destruct Ht as (A & B & C). unfold zero3 in *. pose proof (lin_range w i j k ltac:(lia) ltac:(lia) ltac:(lia)). lia.
Qed.

  Lemma coord_in (w : Z -> Z) e i : in_box zero3 w e -> 0 <= i < 3 -> 0 <= coord e i < w i.
  Proof.
    destruct e as [[a b] c]. intros (A & B & C) Hi. unfold zero3, coord in *. assert (Ei : i = 0 \/ i = 1 \/ i = 2) by lia. destruct Ei as [ -> | [ -> | -> ]]; zc; lia.
  Qed.
(** A face of the domain that element e touches, or its interior. *)
Definition touches (dim : Z) (nel : Z -> Z) (e : triple) (f : form_visit) : Prop :=
  match f with Interior => True | Face axis side => 0 <= axis < dim /\ coord e axis = (if side =? 0 then 0 else nel axis - 1) end.

Section Element.
  Variables dim order : Z.
  Hypothesis Hdim : 1 <= dim <= 3.
  Hypothesis Horder : 1 <= order.
  Variables p m : Z -> Z.
  Variable U : Z -> Z -> R.
  Variable spans : Z -> list Z.
  Variable CB : Z -> Z -> R -> Z -> Z -> (Z -> R) -> Z -> Z -> R.
  Variable BT : Z -> btable.
  Let nel := fun d => if d <? dim then Z.of_nat (length (spans d)) else 1.
  Let nen := fun d => if d <? dim then p d + 1 else 1.
  Hypothesis Hp : forall i, 0 <= i < dim -> 0 <= p i.
  Hypothesis HT : forall i, 0 <= i < dim -> table_ok (CB i) (p i) (m i) (U i) (spans i) (BT i).
  Hypothesis H1 : forall i, dim <= i < 3 -> quad_size (BT i) 0 = 1.
  (* the first and last element are the first and last span *)
  Hypothesis Hends : forall i, 0 <= i < dim -> nth 0 (spans i) 0 = p i /\ nth (Z.to_nat (Z.of_nat (length (spans i)) - 1)) (spans i) 0 = m i - p i - 1.

  Definition nq (e : triple) (f : form_visit) (i : Z) : Z := d_nq (dir_of BT e f i).
  Definition span_of (e : triple) (i : Z) : Z := nth (Z.to_nat (coord e i)) (spans i) 0.
  Local Notation ok e f := (in_box zero3 nel e /\ touches dim nel e f).

  Lemma coord_elem e i : in_box zero3 nel e -> 0 <= i < dim -> 0 <= coord e i < Z.of_nat (length (spans i)).
  Proof. intros He Hi. pose proof (coord_in nel e i He ltac:(lia)) as K. unfold nel in K. replace (i <? dim) with true in K by lia. exact K. Qed.
  Lemma coord_unit e i : in_box zero3 nel e -> dim <= i < 3 -> coord e i = 0.
  Proof. intros He Hi. pose proof (coord_in nel e i He ltac:(lia)) as K. unfold nel in K. replace (i <? dim) with false in K by lia. lia. Qed.
  Lemma size_pos e i : in_box zero3 nel e -> 0 <= i < 3 -> 1 <= quad_size (BT i) (coord e i).
  Proof.
    intros He Hi. destruct (Z_lt_dec i dim) as [L|L].
    - destruct (HT i ltac:(lia)) as (_ & T & _). apply (T (coord e i) (coord_elem e i He ltac:(lia))).
    - rewrite coord_unit by (auto; lia). rewrite H1 by lia. lia.
  Qed.
  Lemma nq_pos e f i : ok e f -> 0 <= i < 3 -> 1 <= nq e f i.
  Proof.
    intros (He & Hf) Hi. unfold nq, dir_of. destruct f as [axis side|]; [|apply size_pos; auto].
    destruct (i =? axis); [cbn; lia|apply size_pos; auto].
  Qed.
  Lemma nq_unit e f i : ok e f -> dim <= i < 3 -> nq e f i = 1.
  Proof.
    intros (He & Hf) Hi. unfold nq, dir_of. assert (K : quad_size (BT i) (coord e i) = 1) by (rewrite coord_unit by auto; apply H1; auto).
    destruct f as [axis side|]; [|exact K]. destruct (i =? axis); [reflexivity|exact K].
  Qed.
  Lemma count_vol e f : ok e f -> tab_count BT e f = Some (vol (nq e f)).
  Proof.
    intros (He & Hf). unfold tab_count, vol, nq, dir_of. destruct f as [axis side|]; [|reflexivity].
    destruct Hf as (Ha & _). pose proof (size_pos e axis He ltac:(lia)). replace (quad_size (BT axis) (coord e axis) =? 0) with false by lia.
    f_equal. assert (E : axis = 0 \/ axis = 1 \/ axis = 2) by lia.
    destruct E as [ -> | [ -> | -> ]]; zc; cbn [d_nq dir_args dir_bndr].
    - rewrite <- Z.mul_assoc, Z.mul_comm, Z.div_mul by lia. lia.
    - set (a := quad_size (BT 0) (coord e 0)). set (b := quad_size (BT 1) (coord e 1)) in *. set (c := quad_size (BT 2) (coord e 2)).
      replace (a * b * c) with (a * c * b) by ring. rewrite Z.div_mul by lia. lia.
    - rewrite Z.div_mul by lia. lia.
  Qed.
  Lemma npts_vol e f : ok e f -> tab_npts BT e f = vol (nq e f).
  Proof. intros H. unfold tab_npts. rewrite count_vol; auto. Qed.
  Lemma npts_pos e f : ok e f -> 1 <= tab_npts BT e f.
  Proof.
    intros H. rewrite npts_vol by auto. unfold vol. pose proof (nq_pos e f 0 H ltac:(lia)). pose proof (nq_pos e f 1 H ltac:(lia)). pose proof (nq_pos e f 2 H ltac:(lia)).
    assert (1 <= nq e f 0 * nq e f 1) by nia. nia.
  Qed.

  (** Point number lin nq t has the indices t. *)
  Lemma index_lin e f t i : ok e f -> in_box zero3 (nq e f) t -> 0 <= i < dim -> point_index dim BT e f (lin (nq e f) t) i = coord t i.
  Proof.
    intros H Ht Hi. destruct t as [[a b] c]. destruct Ht as (A & B & C). unfold zero3 in *.
    pose proof (unlin_lin (nq e f) a b c ltac:(lia) ltac:(lia)) as E. unfold unlin in E. injection E as E0 E1 E2.
    unfold point_index. change (d_nq (dir_of BT e f 0)) with (nq e f 0). change (d_nq (dir_of BT e f 1)) with (nq e f 1). change (d_nq (dir_of BT e f 2)) with (nq e f 2).
    unfold coord. destruct (i =? 0) eqn:I0.
    - destruct (dim =? 1) eqn:D; [|exact E0]. clear E0 E1 E2. pose proof (nq_unit e f 1 H ltac:(lia)) as K1. pose proof (nq_unit e f 2 H ltac:(lia)) as K2. unfold lin.
      assert (b = 0) by lia. assert (c = 0) by lia. subst b c. lia.
    - destruct (i =? 1) eqn:I1.
      + destruct (dim =? 2) eqn:D; [|exact E1]. clear E0 E1 E2. pose proof (nq_unit e f 2 H ltac:(lia)). unfold lin. assert (c = 0) by lia. subst c.
        rewrite Z.mul_0_l, Z.add_0_r. rewrite Z.div_add by lia. rewrite Z.div_small by lia. lia.
      + exact E2.
  Qed.
  Lemma index_range e f q i : ok e f -> 0 <= q < tab_npts BT e f -> 0 <= i < dim -> 0 <= point_index dim BT e f q i < nq e f i.
  Proof.
    intros H Hq Hi. rewrite npts_vol in Hq by auto.
    destruct (lin_unlin (nq e f) q) as (A & B); try (specialize (nq_pos e f); intros K; (specialize (K 0 H) || idtac)).
    1-3: pose proof (nq_pos e f 0 H ltac:(lia)); pose proof (nq_pos e f 1 H ltac:(lia)); pose proof (nq_pos e f 2 H ltac:(lia)); lia.
    { auto. }
    rewrite <- A. rewrite index_lin by auto. apply coord_in; auto. lia.
  Qed.

  (** The value of direction i at the point. *)
  Definition dval (e : triple) (f : form_visit) (q i o a : Z) : R := d_N (dir_of BT e f i) (point_index dim BT e f q i) o a.
  Lemma dval_CB e f q i o a : ok e f -> 0 <= q < tab_npts BT e f -> 0 <= i < dim ->
    dval e f q i o a = CB i (span_of e i) (tab_point dim BT e f q i) (p i) (Z.min (p i) 4) (U i) o a.
  Proof.
    intros H Hq Hi. pose proof (index_range e f q i H Hq Hi) as R. destruct (HT i Hi) as (T1 & T2 & T3 & T4).
    destruct H as (He & Hf). pose proof (coord_elem e i He Hi) as Ce. unfold dval, tab_point, span_of. unfold nq in R.
    destruct f as [axis side|]; cycle 1.
    - unfold dir_of in *. cbn [d_nq d_N d_x dir_args] in *. apply (T2 (coord e i) Ce). exact R.
    - destruct Hf as (Ha & Hs). unfold dir_of in *. destruct (i =? axis) eqn:E.
      + apply Z.eqb_eq in E. subst axis. cbn [d_nq d_N d_x dir_bndr] in *. rewrite T3, T4, Hs. destruct (Hends i Hi) as (N0 & N1). unfold nel. replace (i <? dim) with true by lia.
        destruct (side =? 0); [change (Z.to_nat 0) with 0%nat; rewrite N0|rewrite N1]; reflexivity.
      + cbn [d_nq d_N d_x dir_args] in *. apply (T2 (coord e i) Ce). exact R.
  Qed.
  Lemma dweight_pos e f q i : ok e f -> 0 <= q < tab_npts BT e f -> 0 <= i < dim -> (0 < d_w (dir_of BT e f i) (point_index dim BT e f q i))%R.
  Proof.
    intros H Hq Hi. pose proof (index_range e f q i H Hq Hi) as R. destruct (HT i Hi) as (T1 & T2 & T3 & T4).
    destruct H as (He & Hf). pose proof (coord_elem e i He Hi) as Ce. unfold nq in R.
    destruct f as [axis side|]; unfold dir_of in *; [destruct (i =? axis)|]; cbn [d_nq d_w dir_args dir_bndr] in *; [lra|apply (T2 (coord e i) Ce); exact R|apply (T2 (coord e i) Ce); exact R].
  Qed.

  (** Functions of the element. *)
  Definition fac (e : triple) (f : form_visit) (q : Z) (o : Z -> Z) (al : triple) (i : Z) : R := if i <? dim then dval e f q i (o i) (coord al i) else 1%R.
  Definition tens (e : triple) (f : form_visit) (q : Z) (o : Z -> Z) (al : triple) : R := (fac e f q o al 0 * fac e f q o al 1 * fac e f q o al 2)%R.
  Definition ord1 (i j : Z) : Z := if j =? i then 1 else 0.

  Variables (sqrt : R -> R) (rationalW : triple -> option (Z -> R)) (geometryX : triple -> option (Z -> Z -> R)).
  Variables (oldN oldX oldS : triple -> form_visit -> Z -> nders) (oldE : triple -> form_visit -> Z -> inv_map).
  Definition tab_basis e f q : nders := basis_funs dim order (nen 0) (nen 1) (tab_rows dim BT e f q) (oldN e f q).

  Lemma na_nen e f i : ok e f -> 0 <= i < 3 -> (if i <? dim then d_na (dir_of BT e f i) else 1) = nen i.
  Proof.
    intros H Hi. unfold nen. destruct (i <? dim) eqn:L; auto. destruct (HT i ltac:(lia)) as (T1 & _).
    unfold dir_of. destruct f as [axis side|]; [|exact T1]. destruct (i =? axis); exact T1.
  Qed.
  Lemma nen_pos i : 0 <= i < 3 -> 1 <= nen i.
  Proof. intros Hi. unfold nen. destruct (i <? dim) eqn:L; [|lia]. specialize (Hp i ltac:(lia)). lia. Qed.
  Lemma tab_all_eq e f q : ok e f ->
    tab_all dim order BT rationalW geometryX oldN oldX oldS oldE e f q =
    tabulate dim order (nen 0) (nen 1) (nen 2) (tab_rows dim BT e f q) (rationalW e) (geometryX e) (oldN e f q) (oldX e f q) (oldS e f q) (oldE e f q).
  Proof. intros H. unfold tab_all. rewrite !na_nen by (auto; lia). reflexivity. Qed.

  Lemma node_indices al : in_box zero3 nen al -> node_i (nen 0) (lin nen al + 1) = coord al 0 + 1 /\ node_j (nen 0) (nen 1) (lin nen al + 1) = coord al 1 + 1 /\
    node_k (nen 0) (nen 1) (lin nen al + 1) = coord al 2 + 1.
  Proof.
    intros Ha. destruct al as [[a b] c]. destruct Ha as (A & B & C). unfold zero3 in *. pose proof (unlin_lin nen a b c ltac:(lia) ltac:(lia)) as E. generalize dependent (lin nen (a,b,c)). intros x E. unfold unlin in E. injection E as E0 E1 E2.
    unfold node_i, node_j, node_k. replace (x + 1 - 1) with x by (clear; lia). unfold coord; zc. rewrite E0, E1, E2. clear; lia.
  Qed.
  Lemma basis_n0 e f q al : in_box zero3 nen al -> n0 (tab_basis e f q) (lin nen al + 1) = tens e f q (fun _ => 0) al.
  Proof.
    intros Ha. destruct (node_indices al Ha) as (I & J & K). unfold tab_basis, basis_funs. cbn [n0]. rewrite I, J, K.
    assert (D : dim = 1 \/ dim = 2 \/ dim = 3) by lia. unfold tens, fac, tens_entry, tens_table. 
    destruct D as [E | [E | E]]; rewrite E; zc; cbn [tens_table1 tens_table2 tens_table3 find fst zlist_eqb];
      unfold tab_rows; rewrite ?Z.add_simpl_r; change (1-1) with 0; change (2-1) with 1; change (3-1) with 2; unfold dval; rewrite ?E; ring.
  Qed.
  Lemma basis_n1 e f q al c : in_box zero3 nen al -> 0 <= c < dim -> n1 (tab_basis e f q) (c+1) (lin nen al + 1) = tens e f q (ord1 c) al.
  Proof.
    intros Ha Hc. destruct (node_indices al Ha) as (I & J & K). unfold tab_basis, basis_funs. cbn [n1]. rewrite I, J, K. replace (order <? 1) with false by lia.
    assert (D : dim = 1 \/ dim = 2 \/ dim = 3) by lia. assert (Ec : c = 0 \/ c = 1 \/ c = 2) by lia. unfold tens, fac, tens_entry, tens_table.
    destruct D as [E | [E | E]]; destruct Ec as [ -> | [ -> | -> ]]; try lia; rewrite E; change (0+1) with 1; change (1+1) with 2; change (2+1) with 3; zc; cbn [tens_table1 tens_table2 tens_table3 find fst zlist_eqb]; zc; cbn [andb];
      unfold tab_rows; rewrite ?Z.add_simpl_r; change (1-1) with 0; change (2-1) with 1; change (3-1) with 2; unfold dval, ord1; zc; rewrite ?E; ring.
  Qed.
End Element.
