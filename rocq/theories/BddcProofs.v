(** Lemmas about the adjacency graph handed to BDDC. *)
From Coq Require Import ZArith List Bool Lia Permutation Sorted.
From Coq Require Import ZifyBool ZifyNat.
From Verif Require Import Prelude AxisInitModel GridSpec ElemSpec PcProofs2 BddcModel BddcSpec Box.
Import ListNotations.
Open Scope Z_scope.

Lemma dir3 (P : Z -> Prop) : P 0 -> P 1 -> P 2 -> forall d, 0 <= d < 3 -> P d.
Proof. intros H0 H1 H2 d Hd. assert (E : d = 0 \/ d = 1 \/ d = 2) by lia. destruct E as [-> | [-> | ->]]; auto. Qed.

Lemma bd_index_lin N t : bd_index N (coord t 0) (coord t 1) (coord t 2) = lin N t.
Proof. destruct t as [[i j] k]. change (bd_index N i j k = lin N (i,j,k)). unfold bd_index, lin. ring. Qed.

(** * Colours *)
Lemma radix_inj a b a' b' C : - C < a - a' < C -> a + b * C = a' + b' * C -> a = a' /\ b = b'.
Proof.
  intros H E. assert (H1 : C * (b' - b) = a - a') by lia.
  assert (Hb : b' - b = 0).
  { destruct (Z.eq_dec (b' - b) 0) as [|Hn]; auto. exfalso.
    assert (X : b' - b <= -1 \/ 1 <= b' - b) by lia. destruct X as [X|X].
    - assert (C * (b' - b) <= C * (-1)) by (apply Z.mul_le_mono_nonneg_l; lia). lia.
    - assert (C * 1 <= C * (b' - b)) by (apply Z.mul_le_mono_nonneg_l; lia). lia. }
  split; [|lia]. rewrite Hb in H1. lia.
Qed.

Section Graph.
  Variable bs : Z.
  Variable wrap : Z -> bool.
  Variable shape start width : Z -> Z.
  Hypothesis Hargs : forall d, 0 <= d < 3 -> 0 <= start d /\ 1 <= width d /\ start d + width d <= shape d.

  Definition color_layer d x := let L := start d in let R := start d + width d - 1 in
    let r := if x <? L then x - L else 0 in if R <? x then x - R else r.
  Lemma color_layer_of t d : 0 <= d < 3 -> color_layer d (coord t d) = layer_of start width t d.
  Proof. intros Hd. specialize (Hargs d Hd). unfold color_layer, layer_of. cbv zeta. generalize dependent (coord t d). intros x. destruct (x <? start d) eqn:E1, (start d + width d - 1 <? x) eqn:E2; lia. Qed.
  Lemma color_form t : color shape start width t = bd_index (fun d => shape d - width d + 1)
    (layer_of start width t 0) (layer_of start width t 1) (layer_of start width t 2).
  Proof.
    rewrite <- !color_layer_of by lia. destruct t as [[i j] k]. reflexivity.
  Qed.
  Lemma layer_range t d : 0 <= d < 3 -> in_box zero3 shape t -> - start d <= layer_of start width t d <= shape d - (start d + width d).
  Proof.
    intros Hd Ht. rewrite in_box_coord in Ht. specialize (Ht d Hd). specialize (Hargs d Hd). unfold zero3, layer_of in *.
    generalize dependent (coord t d). intros x. lia.
  Qed.
  Lemma color_same t u : in_box zero3 shape t -> in_box zero3 shape u ->
    (color shape start width t = color shape start width u <-> same_layer start width t u).
  Proof.
    intros Ht Hu. rewrite !color_form. unfold bd_index.
    pose proof (fun d Hd => layer_range t d Hd Ht) as Rt. pose proof (fun d Hd => layer_range u d Hd Hu) as Ru. split.
    - intros E. pose proof (Rt 0 ltac:(lia)) as R0. pose proof (Rt 1 ltac:(lia)) as R1.
      pose proof (Ru 0 ltac:(lia)) as S0. pose proof (Ru 1 ltac:(lia)) as S1.
      pose proof (Hargs 0 ltac:(lia)) as A0. pose proof (Hargs 1 ltac:(lia)) as A1. clear Rt Ru.
      intros d Hd. revert d Hd. 
      set (r := layer_of start width t 0) in *. set (g := layer_of start width t 1) in *. set (b := layer_of start width t 2) in *.
      set (r' := layer_of start width u 0) in *. set (g' := layer_of start width u 1) in *. set (b' := layer_of start width u 2) in *.
      set (C0 := shape 0 - width 0 + 1) in *. set (C1 := shape 1 - width 1 + 1) in *.
      assert (E' : r + (g + b * C1) * C0 = r' + (g' + b' * C1) * C0).
      { transitivity (r + g * C0 + b * C0 * C1); [ring|]. rewrite E. ring. }
      destruct (radix_inj r (g + b * C1) r' (g' + b' * C1) C0) as (Er & E2); [unfold C0; lia|exact E'|].
      destruct (radix_inj g b g' b' C1) as (Eg & Eb); [unfold C1; lia|exact E2|].
      apply dir3; assumption.
    - intros S. rewrite (S 0), (S 1), (S 2) by lia. reflexivity.
  Qed.

  (** * The stencil *)
  Definition wrap1 (d x : Z) : Z :=
    if wrap d then (if x <? 0 then x + shape d else if shape d <=? x then x - shape d else x) else x.
  Lemma on_grid_spec v u : on_grid wrap shape v = Some u <->
    in_box zero3 shape u /\ forall d, 0 <= d < 3 -> coord u d = wrap1 d (coord v d).
  Proof.
    destruct v as [[i j] k]. unfold on_grid. fold (wrap1 0 i). fold (wrap1 1 j). fold (wrap1 2 k).
    assert (Ev : (forall d, 0 <= d < 3 -> coord u d = wrap1 d (coord (i,j,k) d)) <-> u = (wrap1 0 i, wrap1 1 j, wrap1 2 k)).
    { split.
      - intros H. apply tri_ext. intros d Hd. rewrite (H d Hd). revert d Hd. apply dir3; reflexivity.
      - intros ->. apply dir3; reflexivity. }
    rewrite Ev. set (x := wrap1 0 i). set (y := wrap1 1 j). set (z := wrap1 2 k). clear Ev. clearbody x y z.
    destruct ((x <? 0) || (shape 0 <=? x)) eqn:E0.
    { split; [discriminate|]. intros (B & ->). unfold in_box, zero3 in B. lia. }
    destruct ((y <? 0) || (shape 1 <=? y)) eqn:E1.
    { split; [discriminate|]. intros (B & ->). unfold in_box, zero3 in B. lia. }
    destruct ((z <? 0) || (shape 2 <=? z)) eqn:E2.
    { split; [discriminate|]. intros (B & ->). unfold in_box, zero3 in B. lia. }
    split.
    - intros [= <-]. split; [|reflexivity]. unfold in_box, zero3. lia.
    - intros (_ & ->). reflexivity.
  Qed.

  (** t + s *)
  Lemma wrap1_form d x : exists q, (q = 0 \/ wrap d = true /\ (q = -1 \/ q = 1)) /\ wrap1 d x = x + q * shape d.
  Proof.
    unfold wrap1. destruct (wrap d); [|exists 0; split; [auto|lia]].
    destruct (x <? 0); [exists 1; split; [auto|lia]|]. destruct (shape d <=? x); [exists (-1); split; [auto|lia]|exists 0; split; [auto|lia]].
  Qed.
  Lemma wrap1_back d n x y : n = shape d -> 1 <= n -> 0 <= y < n -> -1 <= x <= n -> (y = x \/ wrap d = true /\ (n | y - x)) -> wrap1 d x = y.
  Proof.
    intros En Hn Hy Hx H. unfold wrap1. rewrite <- En. destruct H as [-> | (Hw & q & Hq)].
    - destruct (wrap d); auto. destruct (x <? 0) eqn:E1; [lia|]. destruct (n <=? x) eqn:E2; lia.
    - rewrite Hw. assert (Q : q = -1 \/ q = 0 \/ q = 1).
      { assert (-1 <= q <= 1); [|lia]. split.
        - destruct (Z_lt_le_dec q (-1)) as [L|]; auto. exfalso. assert (q * n <= (-2) * n) by (apply Z.mul_le_mono_nonneg_r; lia). lia.
        - destruct (Z_lt_le_dec 1 q) as [L|]; auto. exfalso. assert (2 * n <= q * n) by (apply Z.mul_le_mono_nonneg_r; lia). lia. }
      destruct Q as [-> | [-> | ->]].
      + destruct (x <? 0) eqn:E1; [lia|]. destruct (n <=? x) eqn:E2; lia.
      + destruct (x <? 0) eqn:E1; [lia|]. destruct (n <=? x) eqn:E2; lia.
      + destruct (x <? 0) eqn:E1; [lia|]. lia.
  Qed.

  Definition vertex_of (t s : triple) : list triple :=
    match on_grid wrap shape (tadd (coord t) s) with
    | Some u => if color shape start width u =? color shape start width t then [u] else []
    | None => []
    end.
  Lemma vertices_form t : vertices wrap shape start width t = map (lin shape) (flat_map (vertex_of t) stencil7).
  Proof.
    destruct t as [[i j] k]. unfold vertices. induction stencil7 as [|s l IH]; auto. cbn [flat_map]. rewrite map_app, <- IH. f_equal.
    clear IH. destruct s as [[a b] c]. unfold vertex_of. change (tadd (coord (i,j,k)) (a,b,c)) with (i+a,j+b,k+c).
    destruct (on_grid wrap shape (i+a,j+b,k+c)) as [[[ii jj] kk]|]; auto.
    destruct (color shape start width (ii,jj,kk) =? color shape start width (i,j,k)); auto.
    cbn [map]. f_equal. apply (bd_index_lin shape (ii,jj,kk)).
  Qed.
  Lemma in_vertex_of t s u : in_box zero3 shape t -> In u (vertex_of t s) <->
    in_box zero3 shape u /\ (forall d, 0 <= d < 3 -> coord u d = wrap1 d (coord t d + coord s d)) /\ same_layer start width t u.
  Proof.
    intros Ht. unfold vertex_of. destruct (on_grid wrap shape (tadd (coord t) s)) as [v|] eqn:E.
    - pose proof (proj1 (on_grid_spec _ _) E) as (Hv & Hc).
      assert (Hc' : forall d, 0 <= d < 3 -> coord v d = wrap1 d (coord t d + coord s d)) by (intros d Hd; rewrite (Hc d Hd), coord_tadd by lia; reflexivity).
      destruct (color shape start width v =? color shape start width t) eqn:Ec.
      + apply Z.eqb_eq in Ec. apply (color_same v t Hv Ht) in Ec. split.
        * intros [<-|[]]. split; [auto|]. split; [auto|]. intros d Hd. symmetry. apply Ec; auto.
        * intros (_ & Hu & _). left. apply tri_ext. intros d Hd. rewrite (Hu d Hd). apply Hc'; auto.
      + split; [intros []|]. intros (Hu & Hcu & Hl). apply Z.eqb_neq in Ec. apply Ec. assert (u = v) by (apply tri_ext; intros d Hd; rewrite (Hcu d Hd), (Hc' d Hd); reflexivity).
        subst u. apply color_same; auto. intros d Hd. symmetry. apply Hl; auto.
    - split; [intros []|]. intros (Hu & Hcu & _). assert (X : on_grid wrap shape (tadd (coord t) s) = Some u).
      { apply on_grid_spec. split; auto. intros d Hd. rewrite coord_tadd by lia. apply Hcu; auto. }
      congruence.
  Qed.

  Lemma stencil_dir s : In s stencil7 -> exists d, 0 <= d < 3 /\ -1 <= coord s d <= 1 /\ forall d', 0 <= d' < 3 -> d' <> d -> coord s d' = 0.
  Proof.
    intros H. unfold stencil7 in H. cbn [In] in H.
    destruct H as [<-|[<-|[<-|[<-|[<-|[<-|[<-|[]]]]]]]];
    [exists 2|exists 1|exists 0|exists 0|exists 0|exists 1|exists 2];
    (split; [lia|]); (split; [split; vm_compute; discriminate|]); apply (dir3 (fun d' => d' <> _ -> coord _ d' = 0)); intros X; try reflexivity; exfalso; apply X; reflexivity.
  Qed.
  Lemma dir_stencil d s : 0 <= d < 3 -> -1 <= s <= 1 -> exists v, In v stencil7 /\ coord v d = s /\ forall d', 0 <= d' < 3 -> d' <> d -> coord v d' = 0.
  Proof.
    intros Hd Hs. exists (tri (fun e => if e =? d then s else 0)). split; [|split].
    - assert (X : s = -1 \/ s = 0 \/ s = 1) by lia. assert (E : d = 0 \/ d = 1 \/ d = 2) by lia.
      destruct E as [-> | [-> | ->]], X as [-> | [-> | ->]]; cbn; auto 10.
    - rewrite coord_tri by lia. rewrite Z.eqb_refl. reflexivity.
    - intros d' Hd' Hn. rewrite coord_tri by lia. destruct (d' =? d) eqn:E; [lia|reflexivity].
  Qed.

  Lemma in_neighbours t u : in_box zero3 shape t -> In u (flat_map (vertex_of t) stencil7) <->
    in_box zero3 shape u /\ beside wrap shape t u /\ same_layer start width t u.
  Proof.
    intros Ht. rewrite in_flat_map. pose proof Ht as Htc. rewrite in_box_coord in Htc. unfold zero3 in Htc. split.
    - intros (s & Hs & Hu). apply (in_vertex_of t s u Ht) in Hu. destruct Hu as (Hu & Hc & Hl). split; [auto|]. split; [|auto].
      destruct (stencil_dir s Hs) as (d & Hd & Hsd & H0). exists d, (coord s d). split; [auto|]. split; [auto|]. split.
      + intros d' Hd' Hn. rewrite (Hc d' Hd'), (H0 d' Hd' Hn). specialize (Htc d' Hd').
        apply (wrap1_back d' (shape d')); [auto|lia|lia|lia|left; lia].
      + rewrite (Hc d Hd). destruct (wrap1_form d (coord t d + coord s d)) as (q & Hq & ->). destruct Hq as [-> | (Hw & _)]; [left; lia|].
        right. split; auto. exists q. lia.
    - intros (Hu & (d & s & Hd & Hs & H0 & Hc) & Hl). destruct (dir_stencil d s Hd Hs) as (v & Hv & Evd & Ev0). exists v. split; auto.
      apply (in_vertex_of t v u Ht). split; [auto|]. split; [|auto]. pose proof Hu as Huc. rewrite in_box_coord in Huc. unfold zero3 in Huc.
      intros d' Hd'. symmetry. specialize (Htc d' Hd'). specialize (Huc d' Hd').
      destruct (Z.eq_dec d' d) as [-> | Hn].
      + rewrite Evd. apply (wrap1_back d (shape d)); [auto|lia|lia|lia|exact Hc].
      + rewrite (Ev0 d' Hd' Hn), (H0 d' Hd' Hn). apply (wrap1_back d' (shape d')); [auto|lia|lia|lia|left; lia].
  Qed.

  Lemma in_vertices t y : in_box zero3 shape t -> In y (vertices wrap shape start width t) <->
    exists u, in_box zero3 shape u /\ beside wrap shape t u /\ same_layer start width t u /\ y = lin shape u.
  Proof.
    intros Ht. rewrite vertices_form, in_map_iff. split.
    - intros (u & <- & Hu). apply (in_neighbours t u Ht) in Hu. exists u. tauto.
    - intros (u & Hu & Hb & Hl & ->). exists u. split; auto. apply (in_neighbours t u Ht). tauto.
  Qed.

  Lemma wrap1_inj d n t s s' : n = shape d -> (wrap d = true -> 3 <= n) -> 0 <= t < n -> -1 <= s <= 1 -> -1 <= s' <= 1 ->
    wrap1 d (t + s) = wrap1 d (t + s') -> s = s'.
  Proof.
    intros En Hw Ht Hs Hs' E. unfold wrap1 in E. rewrite <- En in E. destruct (wrap d); [specialize (Hw eq_refl)|lia].
    destruct (t + s <? 0) eqn:E1, (n <=? t + s) eqn:E2, (t + s' <? 0) eqn:E3, (n <=? t + s') eqn:E4; lia.
  Qed.

  Lemma stencil_range s : In s stencil7 -> forall d, 0 <= d < 3 -> -1 <= coord s d <= 1.
  Proof.
    intros Hs d' Hd'. destruct (stencil_dir s Hs) as (d & Hd & Hr & H0). destruct (Z.eq_dec d' d) as [-> | Hn]; auto. rewrite (H0 d' Hd' Hn). lia.
  Qed.
  Lemma NoDup_stencil : NoDup stencil7.
  Proof. unfold stencil7. repeat (constructor; [cbn; intuition discriminate|]). constructor. Qed.

  Lemma NoDup_vertices t : in_box zero3 shape t -> (forall d, 0 <= d < 3 -> wrap d = true -> 3 <= shape d) ->
    NoDup (vertices wrap shape start width t).
  Proof.
    intros Ht H3. rewrite vertices_form. apply Box.NoDup_map_inj.
    { intros x y Hx Hy. apply (in_neighbours t x Ht) in Hx. apply (in_neighbours t y Ht) in Hy. apply lin_inj; tauto. }
    apply NoDup_flat_map; [apply NoDup_stencil| |].
    - intros s Hs. unfold vertex_of. destruct (on_grid wrap shape (tadd (coord t) s)) as [u|]; [|constructor].
      destruct (color shape start width u =? color shape start width t); repeat constructor; auto.
    - intros s s' x Hs Hs' Hx Hx'. apply (in_vertex_of t s x Ht) in Hx. apply (in_vertex_of t s' x Ht) in Hx'.
      destruct Hx as (_ & Hx & _), Hx' as (_ & Hx' & _). apply tri_ext. intros d Hd.
      pose proof Ht as Htc. rewrite in_box_coord in Htc. unfold zero3 in Htc. specialize (Htc d Hd).
      apply (wrap1_inj d (shape d) (coord t d)); [auto|intros Hw; apply H3; auto|lia|apply stencil_range; auto|apply stencil_range; auto|].
      rewrite <- (Hx d Hd), <- (Hx' d Hd). reflexivity.
  Qed.
End Graph.

(** * Filling the compressed structure *)
Lemma fold_left_flat_map {A B C} (f : C -> B -> C) (g : A -> list B) l c :
  fold_left f (flat_map g l) c = fold_left (fun c a => fold_left f (g a) c) l c.
Proof. revert c. induction l as [|a l IH]; intros c; auto. cbn [flat_map fold_left]. rewrite fold_left_app. apply IH. Qed.
Lemma fold_left_map' {A B C} (f : C -> B -> C) (g : A -> B) l c : fold_left f (map g l) c = fold_left (fun c a => f c (g a)) l c.
Proof. revert c. induction l as [|a l IH]; intros c; auto. cbn [map fold_left]. apply IH. Qed.

Definition zlen {A} (l : list A) : Z := Z.of_nat (length l).
Definition row_entries (bs : Z) (vs : list Z) : list Z := flat_map (fun v => map (fun c2 => c2 + bs * v) (zseq 0 bs)) vs.

Lemma upd_same {T} (f : Z -> T) i v : upd f i v i = v.
Proof. unfold upd. rewrite Z.eqb_refl. reflexivity. Qed.
Lemma upd_other {T} (f : Z -> T) i j v : j <> i -> upd f i v j = f j.
Proof. intros H. unfold upd. replace (j =? i) with false by lia. reflexivity. Qed.

Lemma push_list : forall l pos X A, exists X' A',
  fold_left (fun st y => push y st) l (pos, X, A) = (pos, X', A') /\
  X' pos = X pos + zlen l /\ (forall q, q <> pos -> X' q = X q) /\
  (forall m, 0 <= m < zlen l -> A' (X pos + m) = nth (Z.to_nat m) l 0) /\
  (forall y, y < X pos \/ X pos + zlen l <= y -> A' y = A y).
Proof.
  unfold zlen. induction l as [|a l IH]; intros pos X A.
  - exists X, A. cbn [fold_left length]. split; [auto|]. split; [lia|]. split; [auto|]. split; [intros; lia|auto].
  - cbn [fold_left]. unfold push at 2.
    destruct (IH pos (upd X pos (X pos + 1)) (upd A (X pos) a)) as (X' & A' & E & H1 & H2 & H3 & H4).
    rewrite upd_same in H1, H3, H4. exists X', A'. split; [exact E|]. cbn [length]. split; [lia|]. split; [|split].
    + intros q Hq. rewrite (H2 q Hq). apply upd_other; auto.
    + intros m Hm. destruct (Z.eq_dec m 0) as [-> | Hn].
      * rewrite H4 by lia. rewrite Z.add_0_r, upd_same. reflexivity.
      * replace (X pos + m) with (X pos + 1 + (m - 1)) by lia. rewrite H3 by lia.
        replace (Z.to_nat m) with (Datatypes.S (Z.to_nat (m - 1))) by lia. reflexivity.
    + intros y Hy. rewrite H4 by lia. apply upd_other. lia.
Qed.

Lemma csr_row_ext X A X' A' x : X x = X' x -> X (x+1) = X' (x+1) -> (forall y, X x <= y < X (x+1) -> A y = A' y) -> csr_row X A x = csr_row X' A' x.
Proof.
  intros E1 E2 H. unfold csr_row. rewrite <- E1, <- E2. apply map_ext_in. intros y Hy. apply in_zseq in Hy. apply H. lia.
Qed.

(** State after the rows L have been written. *)
Definition csr_inv (bs : Z) (X0 A0 : Z -> Z) (L : list (list Z)) (st : csr) : Prop :=
  let '(pos, X, A) := st in
  pos = 1 + zlen L /\ X 0 = 0 /\
  (forall x, 0 <= x < zlen L -> X x <= X (x+1)) /\ (forall x, 0 <= x <= zlen L -> 0 <= X x <= X (zlen L)) /\
  (forall x, 0 <= x < zlen L -> csr_row X A x = row_entries bs (nth (Z.to_nat x) L [])) /\
  X (zlen L) = fold_left (fun n vs => n + zlen (row_entries bs vs)) L 0 /\
  (forall q, q < 0 \/ zlen L < q -> X q = X0 q) /\ (forall y, y < 0 \/ X (zlen L) <= y -> A y = A0 y).

Lemma fill_comp_inv bs X0 A0 L vs st : csr_inv bs X0 A0 L st -> csr_inv bs X0 A0 (L ++ [vs]) (fill_comp bs vs st).
Proof.
  destruct st as [[pos X] A]. intros (Ep & Ex & Hm & Hr & Hrow & Hend & HX & HA).
  unfold fill_comp.
  assert (Ef : forall st, fold_left (fun st v => fold_left (fun st c2 => push (c2 + bs * v) st) (zseq 0 bs) st) vs st =
    fold_left (fun st y => push y st) (row_entries bs vs) st).
  { unfold row_entries. clear. induction vs as [|v l IH]; intros st; auto. cbn [flat_map fold_left]. rewrite fold_left_app, fold_left_map'. apply IH. }
  rewrite Ef. clear Ef. set (n := zlen L) in *. assert (Hn : 0 <= n) by (unfold n, zlen; lia).
  subst pos. replace (1 + n - 1) with n by lia.
  destruct (push_list (row_entries bs vs) (1 + n) (upd X (1 + n) (X n)) A) as (X' & A' & -> & H1 & H2 & H3 & H4).
  rewrite upd_same in H1, H3, H4. set (w := zlen (row_entries bs vs)) in *.
  assert (Hw : 0 <= w) by (unfold w, zlen; lia).
  assert (EX : forall q, q <> 1 + n -> X' q = X q) by (intros q Hq; rewrite (H2 q Hq); apply upd_other; auto).
  assert (El : zlen (L ++ [vs]) = n + 1) by (unfold zlen; rewrite app_length; cbn [length]; unfold n, zlen; lia).
  unfold csr_inv. rewrite El. split; [lia|]. split; [rewrite EX by lia; exact Ex|].
  replace (1 + n) with (n + 1) in * by lia.
  split; [|split; [|split; [|split; [|split]]]].
  - intros x Hx. destruct (Z.eq_dec x n) as [-> | Hxn]; [rewrite H1, EX by lia; lia|]. rewrite !EX by lia. apply Hm. lia.
  - intros x Hx. rewrite H1. pose proof (Hr n ltac:(lia)). destruct (Z.eq_dec x (n+1)) as [-> | Hxn]; [rewrite H1; lia|]. rewrite !EX by lia. specialize (Hr x ltac:(lia)). lia.
  - intros x Hx. destruct (Z.eq_dec x n) as [-> | Hxn].
    + rewrite app_nth2 by (unfold n, zlen; lia). replace (Z.to_nat n - length L)%nat with 0%nat by (unfold n, zlen; lia). cbn [nth].
      unfold csr_row. rewrite H1, EX by lia. replace (X n + w - X n) with w by lia.
      apply (nth_ext _ _ 0 0).
      { rewrite map_length, length_zseq. unfold w, zlen. lia. }
      intros m Hm'. rewrite map_length, length_zseq in Hm'.
      rewrite (nth_indep _ 0 (A' 0)) by (rewrite map_length, length_zseq; auto). rewrite map_nth, nth_zseq by auto.
      replace m with (Z.to_nat (Z.of_nat m)) at 2 by lia. apply H3. unfold w, zlen in *. lia.
    + rewrite app_nth1 by (unfold n, zlen in *; lia). rewrite <- Hrow by lia.
      apply csr_row_ext; [apply EX; lia|apply EX; lia|]. intros y Hy. rewrite EX in Hy by lia. apply H4.
      rewrite EX in Hy by lia. pose proof (Hr (x+1) ltac:(lia)). lia.
  - rewrite fold_left_app. cbn [fold_left]. rewrite H1, Hend. reflexivity.
  - intros q Hq. rewrite EX by lia. apply HX. lia.
  - intros y Hy. rewrite H1 in Hy. pose proof (Hr n ltac:(lia)). rewrite H4 by lia. apply HA. lia.
Qed.

Lemma fill_list_inv bs X0 A0 : forall K L st, csr_inv bs X0 A0 L st -> csr_inv bs X0 A0 (L ++ K) (fold_left (fun st vs => fill_comp bs vs st) K st).
Proof.
  induction K as [|vs K IH]; intros L st H; cbn [fold_left]; [rewrite app_nil_r; auto|].
  replace (L ++ vs :: K) with ((L ++ [vs]) ++ K) by (rewrite <- app_assoc; reflexivity). apply IH, fill_comp_inv, H.
Qed.

Section Fill.
  Variable sort : list Z -> list Z.
  Variable bs : Z.
  Variable wrap : Z -> bool.
  Variable shape start width : Z -> Z.

  Definition row_list : list (list Z) :=
    flat_map (fun t => map (fun _ => sort (vertices wrap shape start width t)) (zseq 0 bs)) (grid_nodes shape).
  Lemma graph_fill_rows X0 A0 : csr_inv bs X0 A0 row_list (graph_fill sort bs wrap shape start width X0 A0).
  Proof.
    unfold graph_fill. set (nodes := grid_nodes shape).
    assert (E : forall st, fold_left (fun st t => fold_left (fun st _ => fill_comp bs (sort (vertices wrap shape start width t)) st) (zseq 0 bs) st) nodes st =
      fold_left (fun st vs => fill_comp bs vs st) row_list st).
    { intros st. unfold row_list. fold nodes. rewrite fold_left_flat_map. revert st. induction nodes as [|t l IH]; intros st; auto.
      cbn [fold_left]. rewrite fold_left_map'. apply IH. }
    cbv zeta. rewrite E. apply (fill_list_inv bs X0 A0 row_list []). unfold csr_inv, zlen. cbn [length fold_left].
    change (Z.of_nat 0) with 0. split; [lia|]. split; [apply upd_same|]. split; [intros; lia|]. split; [|split; [intros; lia|split; [apply upd_same|split]]].
    - intros x Hx. replace x with 0 by lia. rewrite upd_same. lia.
    - intros q Hq. apply upd_other. lia.
    - auto.
  Qed.

  Hypothesis Hbs : 1 <= bs.
  Hypothesis Hshape : forall d, 0 <= d < 3 -> 1 <= shape d.
  Hypothesis Hsort : forall l, Permutation (sort l) l.

  Lemma shape_vol : 1 <= vol shape.
  Proof.
    unfold vol. pose proof (Hshape 0 ltac:(lia)). pose proof (Hshape 1 ltac:(lia)). pose proof (Hshape 2 ltac:(lia)).
    pose proof (Z.mul_pos_pos (shape 0) (shape 1)). pose proof (Z.mul_pos_pos (shape 0 * shape 1) (shape 2)). lia.
  Qed.
  Lemma length_grid_nodes : length (grid_nodes shape) = Z.to_nat (vol shape).
  Proof.
    unfold grid_nodes. pose proof (Hshape 0 ltac:(lia)). pose proof (Hshape 1 ltac:(lia)). pose proof (Hshape 2 ltac:(lia)).
    apply (length_box zero3 (fun d => if d =? 0 then shape 0 else if d =? 1 then shape 1 else shape 2)).
    intros i. destruct (i =? 0); [lia|]. destruct (i =? 1); lia.
  Qed.
  Lemma length_row_list : zlen row_list = bs * vol shape.
  Proof.
    unfold zlen, row_list. rewrite (length_flat_map_const _ _ _ _ (Z.to_nat bs)) by (intros; rewrite map_length, length_zseq; reflexivity).
    rewrite length_grid_nodes. pose proof shape_vol. rewrite Nat2Z.inj_mul, !Z2Nat.id by lia. ring.
  Qed.
  Lemma nth_row_list t c : in_box zero3 shape t -> 0 <= c < bs ->
    nth (Z.to_nat (local_dof shape bs t c)) row_list [] = sort (vertices wrap shape start width t).
  Proof.
    intros Ht Hc. assert (Hl : 0 <= lin shape t < vol shape).
    { destruct t as [[i j] k]. unfold in_box, zero3 in Ht. apply lin_range; lia. }
    unfold local_dof, row_list.
    assert (Hq : 0 <= bs * lin shape t) by (apply Z.mul_nonneg_nonneg; lia).
    replace (Z.to_nat (c + bs * lin shape t)) with (Z.to_nat (lin shape t) * Z.to_nat bs + Z.to_nat c)%nat.
    2:{ rewrite Z2Nat.inj_add, Z2Nat.inj_mul by lia. lia. }
    rewrite (nth_flat_map_const _ _ _ _ (Z.to_nat bs) (Z.to_nat (lin shape t)) (Z.to_nat c) (0,0,0) []).
    - unfold grid_nodes. assert (En : nth (Z.to_nat (lin shape t)) (box zero3 shape) (0,0,0) = t).
      { destruct t as [[i j] k]. unfold in_box, zero3 in Ht. rewrite nth_box by lia. unfold zero3. f_equal. }
      rewrite En. rewrite (nth_indep _ [] ((fun _ : Z => sort (vertices wrap shape start width t)) 0)) by (rewrite map_length, length_zseq; lia).
      rewrite (map_nth (fun _ : Z => sort (vertices wrap shape start width t)) (zseq 0 bs) 0). reflexivity.
    - intros; rewrite map_length, length_zseq; reflexivity.
    - lia.
    - rewrite length_grid_nodes. lia.
  Qed.

  Lemma length_row_entries vs : zlen (row_entries bs vs) = bs * zlen vs.
  Proof.
    unfold zlen, row_entries. rewrite (length_flat_map_const _ _ _ _ (Z.to_nat bs)) by (intros; rewrite map_length, length_zseq; reflexivity).
    rewrite Nat2Z.inj_mul, Z2Nat.id by lia. ring.
  Qed.
  Lemma row_total : fold_left (fun n vs => n + zlen (row_entries bs vs)) row_list 0 = graph_nadj bs wrap shape start width.
  Proof.
    unfold graph_nadj, row_list. rewrite fold_left_flat_map.
    assert (G : forall l n m, n = m * (bs * bs) ->
      fold_left (fun c a => fold_left (fun n vs => n + zlen (row_entries bs vs)) (map (fun _ => sort (vertices wrap shape start width a)) (zseq 0 bs)) c) l n =
      fold_left (fun n t => n + Z.of_nat (length (vertices wrap shape start width t))) l m * (bs * bs)).
    { induction l as [|t l IH]; intros n m E; cbn [fold_left]; auto. apply IH.
      assert (C : forall k a v, fold_left (fun n vs => n + zlen (row_entries bs vs)) (map (fun _ : Z => v) k) a = a + zlen k * (bs * zlen v)).
      { induction k as [|x k IHk]; intros a v; cbn [map fold_left]; [unfold zlen; cbn [length]; lia|].
        rewrite IHk, length_row_entries. unfold zlen. cbn [length]. rewrite Nat2Z.inj_succ. ring. }
      rewrite C. unfold zlen. rewrite length_zseq, Z2Nat.id by lia. rewrite (Permutation_length (Hsort _)). rewrite E. ring. }
    apply G. reflexivity.
  Qed.
End Fill.

Lemma in_row_entries bs vs y : In y (row_entries bs vs) <-> exists v c, In v vs /\ 0 <= c < bs /\ y = c + bs * v.
Proof.
  unfold row_entries. rewrite in_flat_map. split.
  - intros (v & Hv & H). apply in_map_iff in H. destruct H as (c & <- & Hc). apply in_zseq in Hc. exists v, c. split; [auto|]. split; [lia|auto].
  - intros (v & c & Hv & Hc & ->). exists v. split; auto. apply in_map_iff. exists c. split; auto. apply in_zseq. lia.
Qed.

Lemma StronglySorted_app' (l l' : list Z) : StronglySorted Z.lt l -> StronglySorted Z.lt l' -> (forall x y, In x l -> In y l' -> x < y) -> StronglySorted Z.lt (l ++ l').
Proof.
  intros H H' Hx. induction H as [|a l Hl IH Ha]; cbn [app]; auto. constructor.
  - apply IH. intros x y X Y. apply Hx; [right; auto|auto].
  - apply List.Forall_forall. intros y Hy. apply in_app_iff in Hy. destruct Hy as [Hy|Hy].
    + apply (proj1 (List.Forall_forall _ _) Ha); auto.
    + apply Hx; [left; auto|auto].
Qed.
Lemma sorted_comps bs v : forall n s, StronglySorted Z.lt (map (fun c => c + bs * v) (zseq s n)).
Proof.
  intros n s. unfold zseq. generalize (Z.to_nat n). intros k. revert s.
  assert (G : forall k j s, StronglySorted Z.lt (map (fun c => c + bs * v) (map (fun i => s + Z.of_nat i) (seq j k)))).
  { induction k0 as [|k0 IH]; intros j s; cbn [seq map]; constructor; auto. apply List.Forall_forall. intros y Hy.
    apply in_map_iff in Hy. destruct Hy as (z & <- & Hz). apply in_map_iff in Hz. destruct Hz as (i & <- & Hi). apply in_seq in Hi. lia. }
  intros s. apply G.
Qed.
Lemma sorted_row bs vs : 1 <= bs -> StronglySorted Z.lt vs -> StronglySorted Z.lt (row_entries bs vs).
Proof.
  intros Hb H. induction H as [|v l Hl IH Hv]; [constructor|]. unfold row_entries. cbn [flat_map]. apply StronglySorted_app'.
  - apply sorted_comps.
  - exact IH.
  - intros x y Hx Hy. apply in_map_iff in Hx. destruct Hx as (c & <- & Hc). apply in_zseq in Hc.
    apply (in_row_entries bs l y) in Hy. destruct Hy as (v' & c' & Hv' & Hc' & ->).
    pose proof (proj1 (List.Forall_forall _ _) Hv v' Hv') as X.
    assert (bs * (v + 1) <= bs * v') by (apply Z.mul_le_mono_nonneg_l; lia). lia.
Qed.
Lemma sorted_strict (l : list Z) : StronglySorted Z.le l -> NoDup l -> StronglySorted Z.lt l.
Proof.
  intros H. induction H as [|a l Hl IH Ha]; intros D; constructor.
  - apply IH. inversion D; auto.
  - apply List.Forall_forall. intros y Hy. pose proof (proj1 (List.Forall_forall _ _) Ha y Hy). inversion D; subst.
    assert (y <> a) by (intros ->; auto). lia.
Qed.
