(** Lemmas about the iterators and the assembly loops. *)
From Coq Require Import ZArith List Bool Lia Reals Lra Permutation.
From Coq Require Import ZifyBool ZifyNat.
From Verif Require Import Prelude AxisModel AxisSpec AxisInitModel SetupModel SetupProofs SetupProps
  Box GridModel GridSpec GridProofs GridProofs2 GridSetup ElemModel ElemSpec.
Import ListNotations.
Open Scope Z_scope.

(** * Enumeration of a box *)
Lemma unlin_form : forall N x, 1 <= N 0 -> 1 <= N 1 -> unlin N x = (x mod N 0, (x / N 0) mod N 1, (x / N 0) / N 1).
Proof. intros N x H0 H1. unfold unlin. rewrite Z.div_div by lia. reflexivity. Qed.

Lemma box_enum : forall s w, (forall d, 0 <= d < 3 -> 0 <= w d) ->
  box s w = map (fun x => tadd s (unlin w x)) (zseq 0 (vol w)).
Proof.
  intros s w Hw. assert (H0 := Hw 0 ltac:(lia)). assert (H1 := Hw 1 ltac:(lia)). assert (H2 := Hw 2 ltac:(lia)).
  pose proof (len_box3 s w Hw) as HL.
  apply nth_ext with (d := tadd s (unlin w 0)) (d' := tadd s (unlin w 0)).
  - rewrite map_length, length_zseq. lia.
  - intros n Hn. assert (Hv : 0 <= Z.of_nat n < vol w) by lia.
    rewrite (map_nth (fun x => tadd s (unlin w x)) (zseq 0 (vol w)) 0 n).
    assert (HP : 0 < w 0 /\ 0 < w 1 /\ 0 < w 2).
    { unfold vol in Hv. assert (w 0 <> 0) by (intros E; rewrite E in Hv; cbn in Hv; lia).
      assert (w 1 <> 0) by (intros E; rewrite E, Z.mul_0_r in Hv; cbn in Hv; lia).
      assert (w 2 <> 0) by (intros E; rewrite E, Z.mul_0_r in Hv; lia). lia. }
    destruct HP as (P0 & P1 & P2).
    destruct (lin_unlin w (Z.of_nat n) P0 P1 P2 Hv) as [E B].
    destruct (unlin w (Z.of_nat n)) as [[i j] k] eqn:EU. unfold in_box, zero3 in B.
    replace n with (Z.to_nat (lin w (i,j,k))) at 1 by (rewrite E; lia).
    rewrite (nth_box s w i j k) by lia.
    rewrite nth_zseq by lia. replace (0 + Z.of_nat n) with (Z.of_nat n) by lia. rewrite EU. reflexivity.
Qed.

Lemma box_from_zero : forall s w, box s w = map (tadd s) (box zero3 w).
Proof.
  intros s w. unfold box. rewrite !flat_map_concat_map, concat_map, map_map.
  assert (Ez : forall a n, zseq a n = map (fun x => a + x) (zseq 0 n)).
  { intros a n. unfold zseq. rewrite map_map. apply map_ext. intros; lia. }
  rewrite (Ez (s 2) (w 2)), map_map. f_equal. apply map_ext. intros k.
  rewrite !flat_map_concat_map, concat_map, map_map. rewrite (Ez (s 1) (w 1)), map_map. f_equal. apply map_ext. intros j.
  rewrite (Ez (s 0) (w 0)), !map_map. reflexivity.
Qed.

(** * Element iterator *)
Definition ext (d : Z) (dim : Z) (f : Z -> Z) (i : Z) : Z := if i <? dim then f i else d.
Lemma ext_pos : forall dim w, (forall i, 0 <= i < dim -> 1 <= w i) -> forall i, 0 <= i -> 1 <= ext 1 dim w i.
Proof. intros dim w Hw i Hi. unfold ext. destruct (i <? dim) eqn:E; [apply Hw; lia|lia]. Qed.

Lemma split_index_spec : forall dim s w x ID, 1 <= dim <= 3 ->
  (forall i, 0 <= i < dim -> 1 <= w i) -> 0 <= x < vol (ext 1 dim w) ->
  let id := snd (split_index dim s w x ID) in
  let t := tadd (ext 0 dim s) (unlin (ext 1 dim w) x) in
  (forall i, dim <= i -> id i = ID i) /\
  (forall i, 0 <= i < dim -> id i = (let '(a,b,c) := t in if i =? 0 then a else if i =? 1 then b else c)).
Proof.
  intros dim s w x ID Hdim Hw Hx.
  assert (Hrem : forall a b, 0 <= a -> 1 <= b -> Z.rem a b = a mod b) by (intros; apply Z.rem_mod_nonneg; lia).
  assert (Hquot : forall a b, 0 <= a -> 1 <= b -> Z.quot (a - a mod b) b = a / b).
  { intros a b Ha Hb. rewrite Z.quot_div_nonneg by (pose proof (Z.mod_le a b); lia).
    symmetry. apply Z.div_unique_exact; [lia|]. pose proof (Z.div_mod a b ltac:(lia)). lia. }
  assert (Hd : forall a b, 0 <= a -> 1 <= b -> 0 <= a / b) by (intros; apply Z.div_pos; lia).
  assert (E : dim = 1 \/ dim = 2 \/ dim = 3) by lia.
  rewrite unlin_form by (apply ext_pos; auto; lia). unfold tadd.
  destruct E as [-> | [-> | ->]]; unfold split_index; cbv zeta.
  - pose proof (Hw 0 ltac:(lia)) as W0. change (zseq 0 1) with [0]. cbn [fold_left snd].
    rewrite Hrem by lia. unfold ext, upd in *. change (0 <? 1) with true. change (1 <? 1) with false. change (2 <? 1) with false.
    cbv iota. split; intros i Hi.
    + replace (i =? 0) with false by lia. reflexivity.
    + assert (i = 0) by lia. subst. change (0 =? 0) with true. cbv iota. apply Z.add_comm.
  - pose proof (Hw 0 ltac:(lia)) as W0. pose proof (Hw 1 ltac:(lia)) as W1. change (zseq 0 2) with [0;1]. cbn [fold_left snd].
    rewrite (Hrem x), (Hquot x) by lia. rewrite Hrem by auto with zarith. unfold ext, upd in *.
    change (0 <? 2) with true. change (1 <? 2) with true. change (2 <? 2) with false.
    cbv iota. split; intros i Hi.
    + replace (i =? 0) with false by lia. replace (i =? 1) with false by lia. reflexivity.
    + assert (E : i = 0 \/ i = 1) by lia. destruct E as [-> | ->]; change (0 =? 0) with true; change (1 =? 0) with false; change (1 =? 1) with true; change (2 =? 0) with false; change (2 =? 1) with false; change (2 =? 2) with true; cbv iota; apply Z.add_comm.
  - pose proof (Hw 0 ltac:(lia)) as W0. pose proof (Hw 1 ltac:(lia)) as W1. pose proof (Hw 2 ltac:(lia)) as W2.
    change (zseq 0 3) with [0;1;2]. cbn [fold_left snd].
    unfold ext, upd in *. change (0 <? 3) with true in *. change (1 <? 3) with true in *. change (2 <? 3) with true in *. cbv iota in *.
    unfold vol in Hx. change (0 <? 3) with true in *. change (1 <? 3) with true in *. change (2 <? 3) with true in *. cbv iota in *.
    assert (Hb : x / w 0 / w 1 < w 2).
    { rewrite Z.div_div by lia. apply Z.div_lt_upper_bound; [apply Z.mul_pos_pos; lia|]. lia. }
    assert (Hb' : 0 <= x / w 0 / w 1) by (apply Hd; [apply Hd|]; lia).
    assert (Hx0 : 0 <= x) by (clear -Hx; lia). assert (Hx1 : 0 <= x / w 0) by (apply Hd; auto).
    rewrite (Hrem x (w 0) Hx0 W0), (Hquot x (w 0) Hx0 W0), (Hrem (x / w 0) (w 1) Hx1 W1), (Hquot (x / w 0) (w 1) Hx1 W1).
    rewrite Hrem by auto. rewrite (Z.mod_small (x / w 0 / w 1)) by (split; assumption). clear Hx0 Hx1 Hb Hb' Hx Hrem Hquot Hd.
    split; intros i Hi.
    + replace (i =? 0) with false by lia. replace (i =? 1) with false by lia. replace (i =? 2) with false by lia. reflexivity.
    + assert (E : i = 0 \/ i = 1 \/ i = 2) by lia. destruct E as [-> | [-> | ->]]; change (0 =? 0) with true; change (1 =? 0) with false; change (1 =? 1) with true; change (2 =? 0) with false; change (2 =? 1) with false; change (2 =? 2) with true; cbv iota; apply Z.add_comm.
Qed.

Section Iter.
  Variables (dim : Z) (s w : Z -> Z).
  Hypothesis Hdim : 1 <= dim <= 3.
  Hypothesis Hw : forall i, 0 <= i < dim -> 1 <= w i.

  (** State of the iterator inside an element loop. *)
  Definition iter_ok (e : elem) : Prop :=
    el_dim e = dim /\ (forall i, 0 <= i < dim -> el_start e i = s i /\ el_width e i = w i) /\
    el_count e = vol (ext 1 dim w) /\ (forall i, dim <= i -> el_ID e i = 0).

  Lemma split_ext : forall e x ID, iter_ok e -> split_index (el_dim e) (el_start e) (el_width e) x ID = split_index dim s w x ID.
  Proof.
    intros e x ID (-> & HS & _). unfold split_index.
    assert (K : forall l st, (forall i, In i l -> 0 <= i < dim) ->
      fold_left (fun st i => let '(index, ID) := st in
         (Z.quot (index - Z.rem index (el_width e i)) (el_width e i), upd ID i (Z.rem index (el_width e i) + el_start e i))) l st =
      fold_left (fun st i => let '(index, ID) := st in
         (Z.quot (index - Z.rem index (w i)) (w i), upd ID i (Z.rem index (w i) + s i))) l st).
    { induction l as [|i l IH]; intros st Hl; [reflexivity|]. cbn [fold_left].
      destruct (HS i) as [E1 E2]; [apply Hl; left; auto|]. destruct st as [a b]. rewrite E1, E2. apply IH. intros; apply Hl; right; auto. }
    apply K. intros i Hi. apply in_zseq in Hi. lia.
  Qed.

  Lemma next_yes : forall e, iter_ok e -> -1 <= el_index e -> el_index e + 1 < vol (ext 1 dim w) ->
    exists e1, next_element e = (true, e1) /\ iter_ok e1 /\ el_index e1 = el_index e + 1 /\
      el_triple e1 = tadd (ext 0 dim s) (unlin (ext 1 dim w) (el_index e + 1)) /\
      el_sizes e1 = el_sizes e /\ el_bid e1 = el_bid e /\ el_atb e1 = el_atb e.
  Proof.
    intros e He Hi Hlt. unfold next_element. pose proof He as (HD & HS & HC & HID). rewrite HC.
    replace (vol (ext 1 dim w) <=? el_index e + 1) with false by lia. eexists. split; [reflexivity|].
    rewrite (split_ext e (el_index e + 1) (el_ID e) He).
    pose proof (split_index_spec dim s w (el_index e + 1) (el_ID e) Hdim Hw ltac:(lia)) as K. cbv zeta in K. destruct K as [K1 K2].
    unfold iter_ok, el_triple; cbn. split; [|split; [reflexivity|split; [|split; [reflexivity|split; reflexivity]]]].
    - split; [auto|]. split; [auto|]. split; [auto|]. intros i Hi'. rewrite K1 by auto. auto.
    - assert (ext1 : forall i, dim <= i -> ext 1 dim w i = 1) by (intros i Hi'; unfold ext; replace (i <? dim) with false by lia; reflexivity).
      assert (ext0 : forall i, dim <= i -> ext 0 dim s i = 0) by (intros i Hi'; unfold ext; replace (i <? dim) with false by lia; reflexivity).
      rewrite (K2 0) by lia. rewrite unlin_form in * by (apply ext_pos; auto; lia). unfold tadd in *. change (0 =? 0) with true. cbv iota.
      assert (HR1 : snd (split_index dim s w (el_index e + 1) (el_ID e)) 1 =
                    ext 0 dim s 1 + (((el_index e + 1) / ext 1 dim w 0) mod ext 1 dim w 1)).
      { destruct (Z.lt_ge_cases 1 dim) as [E|E].
        - rewrite (K2 1) by lia. change (1 =? 0) with false. change (1 =? 1) with true. cbv iota. reflexivity.
        - rewrite K1, HID by lia. rewrite (ext0 1), (ext1 1) by lia. rewrite Z.mod_1_r. reflexivity. }
      assert (HR2 : snd (split_index dim s w (el_index e + 1) (el_ID e)) 2 =
                    ext 0 dim s 2 + ((el_index e + 1) / ext 1 dim w 0 / ext 1 dim w 1)).
      { destruct (Z.lt_ge_cases 2 dim) as [E|E].
        - rewrite (K2 2) by lia. change (2 =? 0) with false. change (2 =? 1) with false. cbv iota. reflexivity.
        - rewrite K1, HID by lia. rewrite (ext0 2) by lia. unfold vol in Hlt. rewrite (ext1 2) in Hlt by lia.
          assert (W0 : 1 <= ext 1 dim w 0) by (unfold ext; replace (0 <? dim) with true by lia; apply Hw; lia).
          assert (W1 : 1 <= ext 1 dim w 1).
          { unfold ext. destruct (1 <? dim) eqn:E1; [apply Hw; lia|lia]. }
          rewrite Z.div_div by lia. rewrite Z.mul_1_r in Hlt. rewrite Z.div_small; [reflexivity|]. split; [lia|exact Hlt]. }
      rewrite HR1, HR2. pose proof (ext_pos dim w Hw 0 ltac:(lia)). pose proof (ext_pos dim w Hw 1 ltac:(lia)). rewrite Z.div_div by lia. reflexivity.
  Qed.

  Lemma loop_from : forall n e x, iter_ok e -> 0 <= x -> el_index e = x - 1 -> x + Z.of_nat n = vol (ext 1 dim w) ->
    exists e', element_loop (S n) e =
      Some (map (fun y => tadd (ext 0 dim s) (unlin (ext 1 dim w) y)) (zseq x (Z.of_nat n)), e') /\
      iter_ok e' /\ el_index e' = -1 /\ el_sizes e' = el_sizes e.
  Proof.
    induction n as [|n IH]; intros e x He Hx Hi Hv.
    - exists (el_set_index e (-1)). pose proof He as (HD & HS & HC & HID).
      rewrite zseq_nil by lia. cbn [element_loop map]. unfold next_element. rewrite HC.
      replace (vol (ext 1 dim w) <=? el_index e + 1) with true by lia. split; [reflexivity|].
      split; [|split; reflexivity]. exact He.
    - destruct (next_yes e He ltac:(lia) ltac:(lia)) as (e1 & E1 & He1 & Hi1 & HT & Hsz & _).
      destruct (IH e1 (x+1) He1 ltac:(lia) ltac:(lia) ltac:(lia)) as (e2 & E2 & He2 & Hi2 & Hs2).
      exists e2. change (element_loop (S (S n)) e) with
        (match next_element e with
         | (true, e1) => match element_loop (S n) e1 with Some (l, e2) => Some (el_triple e1 :: l, e2) | None => None end
         | (false, e1) => Some ([], e1) end).
      rewrite E1, E2. replace (Z.of_nat (S n)) with (Z.of_nat n + 1) by lia.
      rewrite (zseq_cons x (Z.of_nat n + 1)) by lia. cbn [map]. replace (Z.of_nat n + 1 - 1) with (Z.of_nat n) by lia.
      rewrite HT. replace (el_index e + 1) with x by lia. split; [reflexivity|]. split; [auto|]. split; [auto|]. congruence.
  Qed.
End Iter.

Lemma init_count : forall dim w, 1 <= dim <= 3 -> fold_left (fun nel i => nel * w i) (zseq 0 dim) 1 = vol (ext 1 dim w).
Proof.
  intros dim w H. assert (E : dim = 1 \/ dim = 2 \/ dim = 3) by lia. unfold vol, ext.
  destruct E as [-> | [-> | ->]].
  - change (zseq 0 1) with [0]. cbn [fold_left]. change (0 <? 1) with true. change (1 <? 1) with false. change (2 <? 1) with false. cbv iota. lia.
  - change (zseq 0 2) with [0;1]. cbn [fold_left]. change (0 <? 2) with true. change (1 <? 2) with true. change (2 <? 2) with false. cbv iota.
    rewrite Z.mul_1_r, Z.mul_1_l. reflexivity.
  - change (zseq 0 3) with [0;1;2]. cbn [fold_left]. change (0 <? 3) with true. change (1 <? 3) with true. change (2 <? 3) with true. cbv iota.
    rewrite Z.mul_1_l. reflexivity.
Qed.

Lemma begin_ok : forall e0 dim s w sizes, 1 <= dim <= 3 -> iter_ok dim s w (begin_element (elem_init e0 dim s w sizes)).
Proof.
  intros. unfold iter_ok, begin_element, elem_init; cbn. split; [auto|]. split; [|split].
  - intros i Hi. replace (i <? dim) with true by lia. auto.
  - apply init_count; auto.
  - reflexivity.
Qed.

Lemma box_empty : forall s w d, 0 <= d < 3 -> w d <= 0 -> box s w = [].
Proof.
  intros s w d Hd H. destruct (box s w) as [|t l] eqn:E; auto. exfalso.
  assert (Hin : In t (box s w)) by (rewrite E; left; auto). apply In_box in Hin. destruct t as [[i j] k]. unfold in_box in Hin.
  assert (K : d = 0 \/ d = 1 \/ d = 2) by lia. destruct K as [-> | [-> | ->]]; lia.
Qed.

Lemma element_loop_box : forall e0 dim s w sizes, 1 <= dim <= 3 -> (forall i, 0 <= i < dim -> 0 <= w i) ->
  let e := begin_element (elem_init e0 dim s w sizes) in
  exists e', element_loop (Z.to_nat (el_count e + 1)) e = Some (box (ext 0 dim s) (ext 1 dim w), e') /\ el_index e' = -1.
Proof.
  intros e0 dim s w sizes Hdim Hw e.
  assert (Hc : el_count e = vol (ext 1 dim w)) by (apply init_count; auto).
  assert (Hv : 0 <= vol (ext 1 dim w)).
  { unfold vol. assert (K : forall i, 0 <= i -> 0 <= ext 1 dim w i) by (intros i Hi; unfold ext; destruct (i <? dim) eqn:E; [apply Hw; lia|lia]).
    apply Z.mul_nonneg_nonneg; [apply Z.mul_nonneg_nonneg|]; apply K; lia. }
  destruct (forallb (fun i => 1 <=? w i) (zseq 0 dim)) eqn:EP.
  - assert (Hw1 : forall i, 0 <= i < dim -> 1 <= w i).
    { intros i Hi. rewrite forallb_forall in EP. assert (In i (zseq 0 dim)) by (apply in_zseq; lia). specialize (EP i H). lia. }
    replace (Z.to_nat (el_count e + 1)) with (S (Z.to_nat (vol (ext 1 dim w)))) by lia.
    destruct (loop_from dim s w Hdim Hw1 (Z.to_nat (vol (ext 1 dim w))) e 0 (begin_ok e0 dim s w sizes Hdim) ltac:(lia) eq_refl ltac:(lia))
      as (e' & E & _ & Hi & _).
    exists e'. split; [|auto]. rewrite E. f_equal. f_equal. rewrite Z2Nat.id by lia. symmetry. apply box_enum.
    intros d Hd. pose proof (ext_pos dim w Hw1 d ltac:(lia)). lia.
  - assert (Hz : exists d, 0 <= d < 3 /\ ext 1 dim w d <= 0).
    { apply not_true_iff_false in EP. rewrite forallb_forall in EP.
      destruct (Z_lt_le_dec (w 0) 1); [exists 0; split; [lia|]; unfold ext; replace (0 <? dim) with true by lia; lia|].
      destruct (Z_lt_le_dec 1 dim) as [D1|D1].
      2:{ exfalso. apply EP. intros i Hi. apply in_zseq in Hi. assert (i = 0) by lia. subst; lia. }
      destruct (Z_lt_le_dec (w 1) 1); [exists 1; split; [lia|]; unfold ext; replace (1 <? dim) with true by lia; lia|].
      destruct (Z_lt_le_dec 2 dim) as [D2|D2].
      2:{ exfalso. apply EP. intros i Hi. apply in_zseq in Hi. assert (E : i = 0 \/ i = 1) by lia. destruct E; subst; lia. }
      destruct (Z_lt_le_dec (w 2) 1); [exists 2; split; [lia|]; unfold ext; replace (2 <? dim) with true by lia; lia|].
      exfalso. apply EP. intros i Hi. apply in_zseq in Hi. assert (E : i = 0 \/ i = 1 \/ i = 2) by lia. destruct E as [E|[E|E]]; subst; lia. }
    destruct Hz as (d & Hd & Hd0). rewrite (box_empty _ _ d Hd Hd0).
    assert (E0 : vol (ext 1 dim w) = 0).
    { assert (Ed : ext 1 dim w d = 0) by (unfold ext in *; destruct (d <? dim) eqn:E; [specialize (Hw d ltac:(lia)); lia|lia]).
      unfold vol. assert (K : d = 0 \/ d = 1 \/ d = 2) by lia. destruct K as [-> | [-> | ->]]; rewrite Ed; ring. }
    rewrite Hc, E0. change (Z.to_nat (0+1)) with 1%nat. cbn [element_loop]. unfold next_element.
    rewrite Hc, E0. change (el_index e + 1) with 0. change (0 <=? 0) with true. cbv iota. exists (el_set_index e (-1)). auto.
Qed.

Lemma rank_elements_box : forall e0 dim s w sizes, 1 <= dim <= 3 -> (forall i, 0 <= i < dim -> 0 <= w i) ->
  rank_elements e0 dim s w sizes = box (ext 0 dim s) (ext 1 dim w).
Proof.
  intros e0 dim s w sizes Hdim Hw. unfold rank_elements.
  destruct (element_loop_box e0 dim s w sizes Hdim Hw) as (e' & E & _). cbv zeta in E. rewrite E. reflexivity.
Qed.

(** * Form iterator *)
Section Forms.
  Variable visit : Z -> Z -> bool.
  Variable e : elem.
  Let dim := el_dim e.
  Definition face_ok (b : Z) : bool :=
    (el_ID e (Z.quot b 2) =? (if Z.rem b 2 =? 0 then 0 else el_sizes e (Z.quot b 2) - 1)) && visit (Z.quot b 2) (Z.rem b 2).
  Definition faces_after (b : Z) : list Z := filter face_ok (zseq (b+1) (2 * dim - (b+1))).

  Lemma scan_spec : forall n b atb, 2 * dim - b <= Z.of_nat n -> b < 2 * dim ->
    form_scan (S n) visit (el_set_b e b atb) =
    match faces_after b with
    | b' :: _ => (true, el_set_b e b' true)
    | [] => (false, el_set_b e (2 * dim) atb)
    end.
  Proof.
    induction n as [|n IH]; intros b atb Hn Hb; [lia|].
    change (form_scan (S (S n)) visit (el_set_b e b atb)) with
      (if b + 1 <? 2 * dim then
         if negb (el_ID e (Z.quot (b+1) 2) =? (if Z.rem (b+1) 2 =? 0 then 0 else el_sizes e (Z.quot (b+1) 2) - 1))
         then form_scan (S n) visit (el_set_b e (b+1) atb)
         else if negb (visit (Z.quot (b+1) 2) (Z.rem (b+1) 2)) then form_scan (S n) visit (el_set_b e (b+1) atb)
         else (true, el_set_b e (b+1) true)
       else (false, el_set_b e (b+1) atb)).
    destruct (b + 1 <? 2 * dim) eqn:E.
    - assert (EF : faces_after b = if face_ok (b+1) then (b+1) :: faces_after (b+1) else faces_after (b+1)).
      { unfold faces_after. rewrite zseq_cons by lia. cbn [filter].
        replace (2 * dim - (b + 1) - 1) with (2 * dim - (b + 1 + 1)) by lia. reflexivity. }
      unfold face_ok in EF. rewrite EF.
      destruct (el_ID e (Z.quot (b+1) 2) =? _) eqn:E1; cbn [negb andb].
      + destruct (visit _ _) eqn:E2; cbn [negb]; [reflexivity|]. apply IH; lia.
      + apply IH; lia.
    - unfold faces_after. rewrite zseq_nil by lia. cbn [filter]. replace (b + 1) with (2 * dim) by lia. reflexivity.
  Qed.

  Definition visit_of (b : Z) : form_visit := Face (Z.quot b 2) (Z.rem b 2).

  Lemma next_form_set : forall b atb, -1 <= b < 2 * dim ->
    next_form visit (el_set_b e b atb) =
    match faces_after b with
    | b' :: _ => (true, el_set_b e b' true)
    | [] => (true, el_set_b e (2 * dim + 1) false)
    end.
  Proof.
    intros b atb Hb. unfold next_form.
    rewrite (scan_spec (Z.to_nat (2 * el_dim (el_set_b e b atb) - el_bid (el_set_b e b atb))) b atb); cbn [el_set_b el_dim el_bid]; fold dim; [|lia|lia].
    destruct (faces_after b); [|reflexivity]. cbn [el_set_b el_dim el_bid]. fold dim.
    replace (2 * dim =? 2 * dim) with true by lia. reflexivity.
  Qed.

  Lemma next_form_end : next_form visit (el_set_b e (2 * dim + 1) false) = (false, el_set_b e (-1) false).
  Proof.
    unfold next_form. cbn [form_scan el_set_b el_dim el_bid]. fold dim.
    replace (2 * dim + 1 + 1 <? 2 * dim) with false by lia.
    cbn [el_set_b el_dim el_bid]. replace (2 * dim + 1 + 1 =? 2 * el_dim e) with false by (unfold dim; lia). reflexivity.
  Qed.

  Lemma form_loop_from : forall n b atb, 0 <= dim -> -1 <= b < 2 * dim \/ (b = -1) -> 2 * dim - b <= Z.of_nat n ->
    form_loop (S (S n)) visit (el_set_b e b atb) = Some (map visit_of (faces_after b) ++ [Interior], el_set_b e (-1) false).
  Proof.
    induction n as [|n IH]; intros b atb Hd Hb Hn; [lia|].
    change (form_loop (S (S (S n))) visit (el_set_b e b atb)) with
      (match next_form visit (el_set_b e b atb) with
       | (true, e1) => match form_loop (S (S n)) visit e1 with Some (l, e2) => Some (form_of e1 :: l, e2) | None => None end
       | (false, e1) => Some ([], e1) end).
    rewrite next_form_set by lia.
    destruct (faces_after b) as [|b' l] eqn:EF.
    - change (form_loop (S (S n)) visit (el_set_b e (2 * dim + 1) false)) with
      (match next_form visit (el_set_b e (2 * dim + 1) false) with
       | (true, e1) => match form_loop (S n) visit e1 with Some (l, e2) => Some (form_of e1 :: l, e2) | None => None end
       | (false, e1) => Some ([], e1) end).
      rewrite next_form_end. reflexivity.
    - assert (Hb' : b < b' < 2 * dim).
      { assert (Hin : In b' (faces_after b)) by (rewrite EF; left; auto). apply filter_In in Hin. destruct Hin as [Hin _]. apply in_zseq in Hin. lia. }
      rewrite IH by lia. f_equal. f_equal. cbn [map app]. f_equal.
      f_equal. f_equal. unfold faces_after in *.
      replace (2 * dim - (b + 1)) with ((b' - (b+1)) + (1 + (2 * dim - (b'+1)))) in EF by lia.
      rewrite !zseq_app in EF by lia. rewrite !filter_app in EF.
      replace (b + 1 + (b' - (b + 1))) with b' in EF by lia. rewrite (zseq_cons b' 1) in EF by lia. rewrite (zseq_nil (b'+1) (1-1)) in EF by lia.
      cbn [filter] in EF.
      assert (E1 : filter face_ok (zseq (b+1) (b' - (b+1))) = []).
      { destruct (filter face_ok (zseq (b+1) (b' - (b+1)))) as [|x r] eqn:EX; auto. exfalso.
        cbn [app] in EF. injection EF as EX1 _. assert (In x (zseq (b+1) (b'-(b+1)))) by (eapply proj1, filter_In; rewrite EX; left; auto).
        apply in_zseq in H. lia. }
      rewrite E1 in EF. cbn [app] in EF. destruct (face_ok b') eqn:EB.
      + cbn [app] in EF. injection EF as EF. exact EF.
      + exfalso. cbn [app] in EF. assert (In b' (filter face_ok (zseq (b'+1) (2 * dim - (b'+1))))) by (rewrite EF; left; auto).
        apply filter_In in H. destruct H as [H _]. apply in_zseq in H. lia.
  Qed.
End Forms.

(** * Point iterator *)
Lemma point_loop_spec : forall n count x, 0 <= x -> x + 1 + Z.of_nat n = count ->
  point_loop (S n) count (x, x) = Some (zseq (x+1) (Z.of_nat n), (-1, count - 1)).
Proof.
  induction n as [|n IH]; intros count x Hx Hc.
  - cbn [point_loop]. unfold next_point. cbn [fst snd]. replace (x + 1 =? 0) with false by lia.
    replace (count <=? x + 1) with true by lia. rewrite zseq_nil by lia. repeat f_equal. lia.
  - change (point_loop (S (S n)) count (x,x)) with
      (match next_point count (x,x) with
       | (true, st1) => match point_loop (S n) count st1 with Some (l, st2) => Some (snd st1 :: l, st2) | None => None end
       | (false, st1) => Some ([], st1) end).
    unfold next_point. cbn [fst snd]. replace (x + 1 =? 0) with false by lia.
    replace (count <=? x + 1) with false by lia. rewrite IH by lia. cbn [snd].
    rewrite (zseq_cons (x+1)) by lia. repeat f_equal. lia.
Qed.
