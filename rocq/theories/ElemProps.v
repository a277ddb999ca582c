(** Property theorems about element iteration, closures and assembly: C11, C18-C21, C51, C59, C60. *)
From Coq Require Import ZArith List Bool Lia Reals Lra Permutation.
From Coq Require Import ZifyBool ZifyNat.
From Verif Require Import Prelude AxisModel AxisSpec AxisInitModel PartModel PartSpec PartProofs SetupModel SetupProofs SetupProps
  Box GridModel GridSpec GridProofs GridProofs2 GridSetup GridProps ElemModel ElemSpec ElemProofs AsmProofs.
Import ListNotations.
Open Scope Z_scope.

(** * C18 *)
(** From any previous iterator state: IGABeginElement and IGANextElement until it returns false visit
    the local elements in lexicographic order (first direction fastest), w0*w1*w2 of them, with ID[] their
    coordinates; afterwards IGAEndElement succeeds. *)
Theorem C18_element_loop :
  forall (e0 : elem) dim (start width sizes : Z -> Z), 1 <= dim <= 3 -> (forall i, 0 <= i < dim -> 0 <= width i) ->
  let s := fun d => if d <? dim then start d else 0 in
  let w := fun d => if d <? dim then width d else 1 in
  let e := begin_element (elem_init e0 dim start width sizes) in
  exists e', element_loop (Z.to_nat (w 0 * w 1 * w 2 + 1)) e =
      Some (flat_map (fun k => flat_map (fun j => map (fun i => (i, j, k)) (zseq (s 0) (w 0))) (zseq (s 1) (w 1))) (zseq (s 2) (w 2)), e') /\
    end_element e' = Ok.
Proof.
  intros e0 dim start width sizes Hdim Hw s w e.
  destruct (element_loop_box e0 dim start width sizes Hdim Hw) as (e' & E & Hi). cbv zeta in E. exists e'. split.
  - fold e in E. assert (Hc : el_count e = w 0 * w 1 * w 2) by (apply (init_count dim width Hdim)).
    rewrite <- Hc. rewrite E. reflexivity.
  - unfold end_element. rewrite Hi. reflexivity.
Qed.
Print Assumptions C18_element_loop.

Definition no_elem : elem := mk_elem 0 (fun _ => 0) (fun _ => 0) (fun _ => 0) 7 5 (fun _ => 9) 3 true.
Example C18_example :
  option_map fst (element_loop 7 (begin_element (elem_init no_elem 2 (fun i => 10 * (i+1)) (fun i => 2 + i) (fun _ => 50)))) =
  Some [(10,20,0); (11,20,0); (10,21,0); (11,21,0); (10,22,0); (11,22,0)].
Proof. reflexivity. Qed.

(** * C59 *)
(** A further IGANextElement after the loop has ended starts over. *)
Theorem C59_next_element_after_end_refuted :
  exists e, fst (next_element e) = false /\ end_element (snd (next_element e)) = Ok /\
    let e1 := snd (next_element e) in
    fst (next_element e1) = true /\ el_triple (snd (next_element e1)) = (4, 6, 0).
Proof.
  exists (mk_elem 2 (fun i => 4 + 2 * i) (fun _ => 3) (fun _ => 20) 9 8 (fun i => if i =? 2 then 0 else 7) (-1) false).
  vm_compute. repeat split.
Qed.
Print Assumptions C59_next_element_after_end_refuted.

Lemma visited_box : forall (O : KnotOrd) g2 g3 maxint size dim (axes : Z -> axis O) user (LY : Z -> layout) (e0 : Z -> elem) (sizes : Z -> Z -> Z),
  setup_ok g2 g3 maxint size dim axes user LY ->
  forall r, 0 <= r < size -> rank_elements (e0 r) dim (ly_elem_start (LY r)) (ly_elem_width (LY r)) (sizes r) =
    box (ly_elem_start (LY r)) (ly_elem_width (LY r)).
Proof.
  intros O g2 g3 maxint size dim axes user LY e0 sizes S r Hr.
  pose proof (setup_elem_tile _ _ _ _ _ _ _ _ S) as [HS _].
  destruct (setup_form _ _ _ _ _ _ _ _ S) as (n & Hn & HL & Hdim & Hz & HP & HLY).
  specialize (HS r Hr). rewrite rank_elements_box.
  - unfold box, ext. assert (E : forall d, dim <= d < 3 -> ly_elem_start (LY r) d = 0 /\ ly_elem_width (LY r) d = 1).
    { intros d Hd. rewrite (HLY r Hr). unfold layout_of. cbn [ly_elem_start ly_elem_width]. replace (d <? dim) with false by lia. auto. }
    assert (Q : forall d, 0 <= d < 3 -> (if d <? dim then ly_elem_start (LY r) d else 0) = ly_elem_start (LY r) d /\
                                       (if d <? dim then ly_elem_width (LY r) d else 1) = ly_elem_width (LY r) d).
    { intros d Hd. destruct (d <? dim) eqn:Ed; auto. destruct (E d ltac:(lia)). auto. }
    destruct (Q 0 ltac:(lia)) as [-> ->]. destruct (Q 1 ltac:(lia)) as [-> ->]. destruct (Q 2 ltac:(lia)) as [-> ->]. reflexivity.
  - lia.
  - intros i Hi. pose proof (HS i ltac:(lia)). lia.
Qed.

(** * C11 *)
Theorem C11_every_element_on_one_process :
  forall (O : KnotOrd) g2 g3 maxint size dim (axes : Z -> axis O) user (LY : Z -> layout) (e0 : Z -> elem) (sizes : Z -> Z -> Z),
  setup_ok g2 g3 maxint size dim axes user LY ->
  let visited := fun r => rank_elements (e0 r) dim (ly_elem_start (LY r)) (ly_elem_width (LY r)) (sizes r) in
  let nel := fun d => if d <? dim then ax_nel (axes d) else 1 in
  (forall r, 0 <= r < size -> NoDup (visited r) /\ forall e, In e (visited r) -> in_box zero3 nel e) /\
  (forall e, in_box zero3 nel e -> exists! r, 0 <= r < size /\ In e (visited r)) /\
  Permutation (flat_map visited (zseq 0 size)) (box zero3 nel).
Proof.
  intros O g2 g3 maxint size dim axes user LY e0 sizes S visited nel.
  pose proof (setup_elem_tile _ _ _ _ _ _ _ _ S) as HT.
  assert (HV : forall r, 0 <= r < size -> visited r = box (ly_elem_start (LY r)) (ly_elem_width (LY r)))
    by (apply (visited_box O g2 g3 maxint size dim axes user LY e0 sizes S)).
  destruct HT as [HS HU]. split; [|split].
  - intros r Hr. rewrite (HV r Hr). split; [apply NoDup_box|]. intros [[i j] k] He. apply In_box in He.
    pose proof (HS r Hr) as HSr. unfold subbox, in_box, zero3 in *.
    pose proof (HSr 0 ltac:(lia)) as K0. pose proof (HSr 1 ltac:(lia)) as K1. pose proof (HSr 2 ltac:(lia)) as K2.
    unfold elem_size in *. fold (nel 0) in K0. fold (nel 1) in K1. fold (nel 2) in K2. lia.
  - intros e He. destruct (HU e He) as (r & [Hr Hb] & Hu). exists r. split.
    + split; auto. rewrite (HV r Hr). apply In_box. auto.
    + intros r' [Hr' Hb']. apply Hu. split; auto. rewrite (HV r' Hr') in Hb'. apply In_box in Hb'. auto.
  - pose proof (tiles_perm size _ _ _ (conj HS HU)) as K.
    assert (E : flat_map visited (zseq 0 size) = flat_map (fun r => box (ly_elem_start (LY r)) (ly_elem_width (LY r))) (zseq 0 size)).
    { rewrite !flat_map_concat_map. f_equal. apply map_ext_in. intros r Hr. apply in_zseq in Hr. apply HV. lia. }
    rewrite E. exact K.
Qed.
Print Assumptions C11_every_element_on_one_process.

(** * C19 *)
(** One element, any visit flags: the faces that are enabled and on which the element is the first/last of
    its direction, each once, then the interior once, then false with the iterator rewound. *)
Theorem C19_form_loop :
  forall (visit : Z -> Z -> bool) (e : elem), 0 <= el_dim e -> el_bid e = -1 ->
  exists faces e',
    form_loop (Z.to_nat (2 * el_dim e + 3)) visit e = Some (faces ++ [Interior], e') /\
    NoDup faces /\ el_bid e' = -1 /\ el_atb e' = false /\
    (forall v, In v faces <-> exists axis side, v = Face axis side /\ 0 <= axis < el_dim e /\ visit axis side = true /\
        ((side = 0 /\ el_ID e axis = 0) \/ (side = 1 /\ el_ID e axis = el_sizes e axis - 1))).
Proof.
  intros visit e Hd Hb.
  pose proof (form_loop_from visit e (Z.to_nat (2 * el_dim e + 1)) (-1) (el_atb e) Hd ltac:(lia) ltac:(lia)) as K.
  assert (Ee : el_set_b e (-1) (el_atb e) = e) by (destruct e; cbn in *; unfold el_set_b; cbn; rewrite Hb; reflexivity).
  rewrite Ee in K.
  exists (map visit_of (faces_after visit e (-1))), (el_set_b e (-1) false).
  replace (Z.to_nat (2 * el_dim e + 3)) with (Datatypes.S (Datatypes.S (Z.to_nat (2 * el_dim e + 1)))) by lia.
  split; [exact K|]. clear K Ee.
  assert (HF : forall b, In b (faces_after visit e (-1)) <-> 0 <= b < 2 * el_dim e /\ face_ok visit e b = true).
  { intros b. unfold faces_after. rewrite filter_In, in_zseq. split; intros [A B]; split; auto; lia. }
  split.
  { apply NoDup_map_inj; [|apply NoDup_filter, NoDup_zseq].
    intros x y Hx Hy E. apply HF in Hx, Hy. unfold visit_of in E. injection E as E1 E2.
    pose proof (Z.quot_rem' x 2). pose proof (Z.quot_rem' y 2). lia. }
  split; [reflexivity|]. split; [reflexivity|].
  intros v. rewrite in_map_iff. split.
  - intros (b & <- & Hin). apply HF in Hin. destruct Hin as [Hr Hok]. unfold face_ok in Hok. apply andb_prop in Hok. destruct Hok as [O1 O2].
    rewrite (Z.quot_div_nonneg b 2) in * by lia. rewrite (Z.rem_mod_nonneg b 2) in * by lia.
    unfold visit_of. rewrite (Z.quot_div_nonneg b 2), (Z.rem_mod_nonneg b 2) by lia.
    exists (b / 2), (b mod 2). split; [reflexivity|]. split; [lia|]. split; [auto|].
    destruct (b mod 2 =? 0) eqn:E; [left|right]; lia.
  - intros (i & s & -> & Hi & Hv & Hs). exists (2 * i + s).
    assert (Es : s = 0 \/ s = 1) by lia.
    assert (E1 : Z.quot (2 * i + s) 2 = i) by (rewrite Z.quot_div_nonneg by lia; lia).
    assert (E2 : Z.rem (2 * i + s) 2 = s) by (rewrite Z.rem_mod_nonneg by lia; lia).
    unfold visit_of. rewrite E1, E2. split; [reflexivity|]. apply HF. split; [lia|].
    unfold face_ok. rewrite E1, E2, Hv, andb_true_r. destruct Hs as [[-> Hs]|[-> Hs]].
    + change (0 =? 0) with true. cbv iota. lia.
    + change (1 =? 0) with false. cbv iota. lia.
Qed.
Print Assumptions C19_form_loop.

(** First and last element of a direction are the ones that touch the ends of the parametric domain. *)
Theorem C19_end_elements_touch_the_boundary :
  forall (O : KnotOrd) (a : axis O) l, ax_span a = Some l ->
  axis_wf (ax_periodic a) (ax_p a) (ax_m a) (ax_U a) (ax_nnp a) (ax_nel a) l ->
  ends_nonempty (ax_p a) (ax_m a) (ax_U a) ->
  forall e k, nth_error l (Z.to_nat e) = Some k -> 0 <= e ->
  (e = 0 <-> keq (ax_U a k) (ax_U a (ax_p a))) /\
  (e = ax_nel a - 1 <-> keq (ax_U a (k+1)) (ax_U a (ax_m a - ax_p a))).
Proof.
  intros O a l Hl Hwf He e k Hk Hpos. assert (L : wf a l) by (split; auto).
  destruct (wf_ends a l L He) as (Hn & E0 & E1).
  assert (Hlen : 0 <= e < ax_nel a).
  { destruct Hwf as (_ & _ & -> & _). assert (Z.to_nat e < length l)%nat by (apply nth_error_Some; congruence). lia. }
  assert (Ek : span_at a e = k) by (unfold span_at; rewrite Hl; eapply nth_error_nth; eauto).
  pose proof (span_at_elem a l L e Hlen) as HE. rewrite Ek in HE.
  destruct HE as (Hr & Hlt). destruct He as [He1 He2].
  destruct Hwf as ((Hp & Hm & Hnd & _) & _).
  assert (Hmono : forall i j, 0 <= i -> i <= j -> j <= ax_m a -> kle (ax_U a i) (ax_U a j)).
  { intros i j Hi Hij Hj. apply Hnd; lia. }
  assert (keq_refl : forall x : O, keq x x) by (intros x; split; apply kltb_irrefl).
  split; split.
  - intros ->. rewrite E0 in Ek. subst k. apply keq_refl.
  - intros [K1 K2]. destruct (Z.eq_dec e 0) as [|Hne]; auto. exfalso.
    pose proof (span_at_gap a l L 0 e ltac:(lia) ltac:(lia) ltac:(lia)) as HG. rewrite Ek, E0 in HG.
    pose proof (Hmono (ax_p a + 1) k ltac:(lia) ltac:(lia) ltac:(lia)) as HM. unfold klt, kle in *.
    destruct (kltb_negtrans O _ (ax_U a k) _ He1); congruence.
  - intros ->. rewrite E1 in Ek. subst k. replace (ax_m a - ax_p a - 1 + 1) with (ax_m a - ax_p a) by lia. apply keq_refl.
  - intros [K1 K2]. destruct (Z.eq_dec e (ax_nel a - 1)) as [|Hne]; auto. exfalso.
    pose proof (span_at_gap a l L e (ax_nel a - 1) ltac:(lia) ltac:(lia) ltac:(lia)) as HG. rewrite Ek, E1 in HG.
    pose proof (Hmono (k+1) (ax_m a - ax_p a - 1) ltac:(lia) ltac:(lia) ltac:(lia)) as HM. unfold klt, kle in *.
    destruct (kltb_negtrans O _ (ax_U a (k+1)) _ He2); congruence.
Qed.
Print Assumptions C19_end_elements_touch_the_boundary.

Example C19_example :
  let visit := fun a s => negb ((a =? 0) && (s =? 1)) in
  let e := mk_elem 2 (fun _ => 0) (fun _ => 1) (fun i => if i =? 0 then 1 else 5) 1 0 (fun i => if i =? 0 then 0 else 4) (-1) true in
  option_map fst (form_loop 7 visit e) = Some [Face 0 0; Face 1 1; Interior].
Proof. reflexivity. Qed.

(** * C60 *)
(** Nothing prevents boundary forms on a periodic direction: enabling a face is accepted and the form is
    visited on the first element, although the domain has no boundary there. *)
Theorem C60_boundary_form_on_periodic_axis_refuted :
  exists (a : axis Zord) visit (e : elem), axis_ready a /\ ax_periodic a = true /\
    el_dim e = 1 /\ el_sizes e 0 = ax_nel a /\ el_bid e = -1 /\ el_ID e 0 = 0 /\
    set_boundary_form 1 0 0 true (fun _ _ => false) = (Ok, visit) /\
    option_map fst (form_loop 5 visit e) = Some [Face 0 0; Interior].
Proof.
  exists (ex_axes 0), (snd (set_boundary_form 1 0 0 true (fun _ _ => false))),
    (mk_elem 1 (fun _ => 0) (fun _ => 8) (fun _ => 8) 8 0 (fun _ => 0) (-1) false).
  split; [apply ex_axes_ready; lia|]. repeat split.
Qed.
Print Assumptions C60_boundary_form_on_periodic_axis_refuted.

(** * C20 *)
(** Node [t] is coupled by element [e]: in each direction, t is one of the functions whose index is
    between span-p and span, span being the element's entry of the axis' span list. *)
Definition supported {O : KnotOrd} (dim : Z) (axes : Z -> axis O) (e t : triple) : Prop :=
  forall d, 0 <= d < 3 ->
    if d <? dim then exists l k, ax_span (axes d) = Some l /\ nth_error l (Z.to_nat (coord e d)) = Some k /\
                       active (ax_p (axes d)) (coord t d) k
    else coord t d = 0.

Lemma elem_off_coord : forall (O : KnotOrd) dim (axes : Z -> axis O) e d, 0 <= d < 3 ->
  elem_off dim axes e d = basis_offset dim axes d (coord e d).
Proof. intros O dim axes [[i j] k] d Hd. reflexivity. Qed.

Lemma setup_cover : forall (O : KnotOrd) g2 g3 maxint size dim (axes : Z -> axis O) user (LY : Z -> layout) dof,
  setup_ok g2 g3 maxint size dim axes user LY ->
  forall r e a, 0 <= r < size -> In e (box (ly_elem_start (LY r)) (ly_elem_width (LY r))) -> In a (box zero3 (basis_nen dim axes)) ->
  in_box (gr_gstart (grid_of dof (ly_node (LY r)))) (gr_gwidth (grid_of dof (ly_node (LY r)))) (tadd (elem_off dim axes e) a).
Proof.
  intros O g2 g3 maxint size dim axes user LY dof S r e a Hr He Ha.
  destruct (setup_form _ _ _ _ _ _ _ _ S) as (n & Hn & HL & Hdim & Hz & HP & HLY).
  cbn [grid_of gr_gstart gr_gwidth].
  assert (K : forall d, 0 <= d < 3 -> ly_elem_start (LY r) d <= coord e d < ly_elem_start (LY r) d + ly_elem_width (LY r) d ->
     0 <= coord a d < basis_nen dim axes d ->
     r_gstart (ly_node (LY r) d) <= elem_off dim axes e d + coord a d < r_gstart (ly_node (LY r) d) + r_gwidth (ly_node (LY r) d)).
  { intros d Hd H1 H2. rewrite elem_off_coord by auto. rewrite (HLY r Hr) in *. unfold layout_of in *. cbn [ly_node ly_elem_start ly_elem_width] in *.
    unfold basis_nen, basis_offset in *. destruct (d <? dim) eqn:E.
    - destruct (setup_wf _ _ _ _ _ _ _ _ S d ltac:(lia)) as (l & L & _).
      pose proof (pad_coords n r d Hn ltac:(lia) ltac:(lia)) as Hc.
      apply (ghost_covers_closures (axes d) l (pad 1 n d) (pad 0 (rank_coords n r) d) (coord e d) _ L (HP d ltac:(lia)) Hc H1).
      unfold active. lia.
    - cbn [unit_range r_gstart r_gwidth]. lia. }
  apply In_box in He, Ha. destruct e as [[e0 e1] e2], a as [[a0 a1] a2].
  unfold in_box, zero3 in He, Ha. destruct He as (He0 & He1 & He2). destruct Ha as (Ha0 & Ha1 & Ha2).
  pose proof (K 0 ltac:(lia) He0 Ha0) as K0. pose proof (K 1 ltac:(lia) He1 Ha1) as K1. pose proof (K 2 ltac:(lia) He2 Ha2) as K2.
  unfold tadd, in_box. cbn [coord] in *. change (0 =? 0) with true in K0. change (1 =? 0) with false in K1. change (1 =? 1) with true in K1.
  change (2 =? 0) with false in K2. change (2 =? 1) with false in K2. cbv iota in K0, K1, K2. auto.
Qed.

(** Element [e] of rank [r]: mapping[] lists, first direction fastest, the local indices of exactly the
    supported nodes; they are distinct, in range, and the local-to-global map sends them to the nodes
    wrapped around periodic directions. *)
Theorem C20_element_closure :
  forall (O : KnotOrd) g2 g3 maxint size dim (axes : Z -> axis O) user (LY : Z -> layout) dof (e0 : Z -> elem) (sizes : Z -> Z -> Z),
  setup_ok g2 g3 maxint size dim axes user LY -> 1 <= dof ->
  let G := fun r => grid_of dof (ly_node (LY r)) in
  let N := fun d => if d <? dim then ax_nnp (axes d) else 1 in
  forall r e, 0 <= r < size -> In e (rank_elements (e0 r) dim (ly_elem_start (LY r)) (ly_elem_width (LY r)) (sizes r)) ->
  let mapping := closure (elem_off dim axes e) (basis_nen dim axes) (gr_gstart (G r)) (gr_gwidth (G r)) in
  let width := fun d => if d <? dim then ax_p (axes d) + 1 else 1 in
  let local := fun t => lin (gr_gwidth (G r)) (tsub (gr_gstart (G r)) t) in
  exists lowest, mapping = map local (box lowest width) /\
    (forall t, In t (box lowest width) <-> supported dim axes e t) /\
    NoDup mapping /\
    forall t, supported dim axes e t ->
      0 <= local t < gr_gwidth (G r) 0 * (gr_gwidth (G r) 1 * gr_gwidth (G r) 2) /\
      lgmap size G r (local t) = ao size G (lin N (modbox N t)).
Proof.
  intros O g2 g3 maxint size dim axes user LY dof e0 sizes S Hdof G N r e Hr He mapping width local.
  rewrite (visited_box O g2 g3 maxint size dim axes user LY e0 sizes S r Hr) in He.
  pose proof (setup_world _ _ _ _ _ _ _ _ S dof Hdof) as W. fold G in W. change (node_size dim axes) with N in W.
  destruct (setup_form _ _ _ _ _ _ _ _ S) as (n & Hn & HL & Hdim & Hz & HP & HLY).
  assert (Hg : forall d, 0 <= d < 3 -> - N d <= gr_gstart (G r) d).
  { intros d Hd. pose proof (setup_node_facts _ _ _ _ _ _ _ _ S r d Hr Hd) as (A & B & C & _).
    unfold G; cbn [grid_of gr_gstart]. unfold node_size in B. fold (N d) in B. lia. }
  set (lo := elem_off dim axes e).
  assert (Ebox : box lo width = map (tadd lo) (box zero3 width)).
  { apply box_from_zero. }
  assert (Hin : forall t, In t (box lo width) -> in_box (gr_gstart (G r)) (gr_gwidth (G r)) t).
  { intros t Ht. rewrite Ebox in Ht. apply in_map_iff in Ht. destruct Ht as (a & <- & Ha).
    exact (setup_cover O g2 g3 maxint size dim axes user LY dof S r e a Hr He Ha). }
  assert (Helem : forall d, 0 <= d < dim -> exists l, ax_span (axes d) = Some l /\ nth_error l (Z.to_nat (coord e d)) = Some (span_at (axes d) (coord e d))).
  { intros d Hd. destruct (setup_wf _ _ _ _ _ _ _ _ S d Hd) as (l & (L1 & L2) & _). exists l. split; auto.
    unfold span_at. rewrite L1. apply nth_error_nth'. destruct L2 as (_ & _ & Hlen & _).
    pose proof (proj1 (setup_elem_tile _ _ _ _ _ _ _ _ S) r Hr d ltac:(lia)) as HS. cbv beta in HS. unfold elem_size in HS.
    replace (d <? dim) with true in HS by lia. apply In_box in He. destruct e as [[i j] k]. unfold in_box in He.
    assert (E : d = 0 \/ d = 1 \/ d = 2) by lia.
    destruct E as [-> | [-> | ->]]; cbn [coord]; [change (0 =? 0) with true|change (1 =? 0) with false; change (1 =? 1) with true|change (2 =? 0) with false; change (2 =? 1) with false]; cbv iota; unfold zero3 in HS; lia. }
  assert (Hsup : forall t, In t (box lo width) <-> supported dim axes e t).
  { intros t. rewrite In_box.
    assert (Kd : forall d, 0 <= d < 3 -> (lo d <= coord t d < lo d + width d <->
       (if d <? dim then exists l k, ax_span (axes d) = Some l /\ nth_error l (Z.to_nat (coord e d)) = Some k /\ active (ax_p (axes d)) (coord t d) k
        else coord t d = 0))).
    { intros d Hd. unfold lo, width. rewrite elem_off_coord by auto. unfold basis_offset. destruct (d <? dim) eqn:E; [|lia].
      destruct (Helem d ltac:(lia)) as (l & L1 & L2). split.
      - intros H. exists l, (span_at (axes d) (coord e d)). split; auto. split; auto. unfold active. lia.
      - intros (l' & k & A & B & C). assert (l' = l) by congruence. subst l'. assert (k = span_at (axes d) (coord e d)) by congruence. subst k.
        unfold active in C. lia. }
    destruct t as [[i j] k]. unfold in_box. split.
    - intros (B0 & B1 & B2) d Hd. apply Kd; auto. assert (E : d = 0 \/ d = 1 \/ d = 2) by lia. destruct E as [-> | [-> | ->]]; assumption.
    - intros H. split; [exact (proj2 (Kd 0 ltac:(lia)) (H 0 ltac:(lia)))|]. split; [exact (proj2 (Kd 1 ltac:(lia)) (H 1 ltac:(lia)))|exact (proj2 (Kd 2 ltac:(lia)) (H 2 ltac:(lia)))]. }
  assert (Emap : mapping = map local (box lo width)).
  { rewrite Ebox, map_map. unfold mapping, closure. change (basis_nen dim axes) with width. apply map_ext. intros [[i j] k].
    unfold local, lin, tsub, tadd, lo. lia. }
  exists lo. split; [exact Emap|]. split; [exact Hsup|]. split.
  - rewrite Emap. apply NoDup_map_inj; [|apply NoDup_box]. intros x y Hx Hy E. apply Hin in Hx, Hy. unfold local in E.
    assert (K : tsub (gr_gstart (G r)) x = tsub (gr_gstart (G r)) y).
    { apply (lin_inj (gr_gwidth (G r))); auto; [destruct x as [[? ?] ?]|destruct y as [[? ?] ?]]; unfold in_box, tsub, zero3 in *; lia. }
    destruct x as [[? ?] ?], y as [[? ?] ?]. unfold tsub in K. injection K as K0 K1 K2. repeat f_equal; lia.
  - intros t Ht. apply Hsup, Hin in Ht. destruct t as [[i j] k]. unfold in_box in Ht. unfold local, tsub. split.
    + pose proof (lin_range (gr_gwidth (G r)) (i - gr_gstart (G r) 0) (j - gr_gstart (G r) 1) (k - gr_gstart (G r) 2)) as K.
      unfold vol in K. rewrite Z.mul_assoc. apply K; lia.
    + rewrite (lgmap_coords _ _ _ _ W) by (auto; lia). do 4 f_equal; [f_equal|]; lia.
Qed.
Print Assumptions C20_element_closure.

(** * C21, C51 *)
(** The assembled objects, node by node, are the serial sums of ElemSpec.v: no process count, ownership or
    ordering occurs in them.  [Fe], [Ke], [Sc], [JW] are arbitrary; inputs are given by the nodal values
    they hold; [L0] is the previous contents of the work vectors; [order] the order of contributions. *)
Theorem C21_C51_assembly_is_serial_sum :
  forall (O : KnotOrd) g2 g3 maxint size dim (axes : Z -> axis O) user (LY : Z -> layout) dof (e0 : Z -> elem) (sizes : Z -> Z -> Z),
  setup_ok g2 g3 maxint size dim axes user LY -> 1 <= dof ->
  let G := fun r => grid_of dof (ly_node (LY r)) in
  let N := fun d => if d <? dim then ax_nnp (axes d) else 1 in
  let nel := fun d => if d <? dim then ax_nel (axes d) else 1 in
  let nen := fun d => if d <? dim then ax_p (axes d) + 1 else 1 in
  let first := fun e d => if d <? dim then span_at (axes d) (coord e d) - ax_p (axes d) else 0 in
  let elems := fun r => rank_elements (e0 r) dim (ly_elem_start (LY r)) (ly_elem_width (LY r)) (sizes r) in
  let mapping := fun r e => closure (elem_off dim axes e) (basis_nen dim axes) (gr_gstart (G r)) (gr_gwidth (G r)) in
  forall Fe Ke npts JW Sc (ins : list (Z -> R)) (X : list nodal) L0 order,
  Permutation order (zseq 0 size) ->
  Forall2 (fun V x => forall t c, in_box zero3 N t -> 0 <= c < dof -> V (dof * ao size G (lin N t) + c) = x t c) ins X ->
  (forall t c, in_box zero3 N t -> 0 <= c < dof ->
     compute_vector size G dof elems mapping Fe ins L0 order (dof * ao size G (lin N t) + c) =
     serial_vector N nen first dof nel Fe X t c) /\
  (forall t c u d, in_box zero3 N t -> 0 <= c < dof -> in_box zero3 N u -> 0 <= d < dof ->
     compute_matrix size G dof elems mapping Ke ins L0 order (dof * ao size G (lin N t) + c) (dof * ao size G (lin N u) + d) =
     serial_matrix N nen first dof nel Ke X t c u d) /\
  (forall i, compute_scalar size G dof elems mapping ins L0 npts JW Sc order i =
     serial_scalar N nen first dof nel npts JW Sc X i).
Proof.
  intros O g2 g3 maxint size dim axes user LY dof e0 sizes S Hdof G N nel nen first elems mapping Fe Ke npts JW Sc ins X L0 order Ho Hins.
  pose proof (setup_world _ _ _ _ _ _ _ _ S dof Hdof) as W. fold G in W. change (node_size dim axes) with N in W.
  assert (Hg : forall r d, 0 <= r < size -> 0 <= d < 3 -> - N d <= gr_gstart (G r) d).
  { intros r d Hr Hd. pose proof (setup_node_facts _ _ _ _ _ _ _ _ S r d Hr Hd) as (A & B & C & _).
    unfold G; cbn [grid_of gr_gstart]. unfold node_size in B. fold (N d) in B. lia. }
  assert (Hnen : forall d, 0 <= d < 3 -> 0 <= nen d).
  { intros d Hd. unfold nen. destruct (d <? dim) eqn:E; [|lia]. destruct (setup_wf _ _ _ _ _ _ _ _ S d ltac:(lia)) as (l & (_ & (Hp & _) & _) & _). lia. }
  pose proof (setup_elem_tile _ _ _ _ _ _ _ _ S) as HT. change (elem_size dim axes) with nel in HT.
  assert (He : forall r, 0 <= r < size -> elems r = box (ly_elem_start (LY r)) (ly_elem_width (LY r)))
    by (apply (visited_box O g2 g3 maxint size dim axes user LY e0 sizes S)).
  assert (Hcov : forall r e a, 0 <= r < size -> In e (elems r) -> In a (box zero3 nen) ->
    in_box (gr_gstart (G r)) (gr_gwidth (G r)) (tadd (elem_off dim axes e) a)).
  { intros r e a Hr Hin Ha. rewrite (He r Hr) in Hin. exact (setup_cover O g2 g3 maxint size dim axes user LY dof S r e a Hr Hin Ha). }
  assert (Hfirst : forall e d, 0 <= d < 3 -> first e d = elem_off dim axes e d)
    by (intros e d Hd; rewrite elem_off_coord by auto; reflexivity).
  assert (Hadd : forall e a, tadd (first e) a = tadd (elem_off dim axes e) a).
  { intros e [[i j] k]. unfold tadd. rewrite !Hfirst by lia. reflexivity. }
  assert (Hnode : forall e a, elem_node N first e a = elem_node N (elem_off dim axes) e a)
    by (intros e a; unfold elem_node; rewrite Hadd; reflexivity).
  assert (Hcopy : forall e x, elem_copy N nen first dof e x = elem_copy N nen (elem_off dim axes) dof e x).
  { intros e x. unfold elem_copy. rewrite !flat_map_concat_map. f_equal. apply map_ext. intros a. rewrite Hnode. reflexivity. }
  assert (Hcopies : forall e, map (elem_copy N nen first dof e) X = map (elem_copy N nen (elem_off dim axes) dof e) X)
    by (intros e; apply map_ext; intros; apply Hcopy).
  split; [|split].
  - intros t c Ht Hc.
    etransitivity; [exact (vector_serial size dof N G W Hg nel nen (elem_off dim axes) _ _ Hnen HT elems He Hcov ins X Hins L0 order Ho Fe t c Ht Hc)|].
    unfold serial_vector. apply rsum_ext. intros e _. rewrite Hcopies. apply rsum_ext. intros a _. rewrite Hnode. reflexivity.
  - intros t c u d Ht Hc Hu Hd.
    etransitivity; [exact (matrix_serial size dof N G W Hg nel nen (elem_off dim axes) _ _ Hnen HT elems He Hcov ins X Hins L0 order Ho Ke t c u d Ht Hc Hu Hd)|].
    unfold serial_matrix. apply rsum_ext. intros e _. rewrite Hcopies. apply rsum_ext. intros a _. apply rsum_ext. intros b _. rewrite !Hnode. reflexivity.
  - intros i.
    etransitivity; [exact (scalar_serial size dof N G W Hg nel nen (elem_off dim axes) _ _ Hnen HT elems He Hcov ins X Hins L0 order Ho npts JW Sc i)|].
    unfold serial_scalar. apply rsum_ext. intros e _. rewrite Hcopies. reflexivity.
Qed.
Print Assumptions C21_C51_assembly_is_serial_sum.

(** Same axes, two process counts (or grids, or arrival orders): same vector, matrix and integrals. *)
Theorem C21_C51_independent_of_processes :
  forall (O : KnotOrd) dim (axes : Z -> axis O) dof g2 g3 maxint size user LY (e0 : Z -> elem) sizes L0 order
         g2' g3' maxint' size' user' LY' (e0' : Z -> elem) sizes' L0' order',
  setup_ok g2 g3 maxint size dim axes user LY -> setup_ok g2' g3' maxint' size' dim axes user' LY' -> 1 <= dof ->
  Permutation order (zseq 0 size) -> Permutation order' (zseq 0 size') ->
  let N := fun d => if d <? dim then ax_nnp (axes d) else 1 in
  let G := fun r => grid_of dof (ly_node (LY r)) in
  let G' := fun r => grid_of dof (ly_node (LY' r)) in
  let elems := fun r => rank_elements (e0 r) dim (ly_elem_start (LY r)) (ly_elem_width (LY r)) (sizes r) in
  let elems' := fun r => rank_elements (e0' r) dim (ly_elem_start (LY' r)) (ly_elem_width (LY' r)) (sizes' r) in
  let mapping := fun G r e => closure (elem_off dim axes e) (basis_nen dim axes) (gr_gstart (G r)) (gr_gwidth (G r)) in
  let ix := fun t c => dof * ao size G (lin N t) + c in
  let ix' := fun t c => dof * ao size' G' (lin N t) + c in
  forall Fe Ke npts JW Sc (ins ins' : list (Z -> R)),
  (* the inputs of the two runs hold the same nodal values *)
  Forall2 (fun V V' => forall t c, in_box zero3 N t -> 0 <= c < dof -> V (ix t c) = V' (ix' t c)) ins ins' ->
  (forall t c, in_box zero3 N t -> 0 <= c < dof ->
     compute_vector size G dof elems (mapping G) Fe ins L0 order (ix t c) =
     compute_vector size' G' dof elems' (mapping G') Fe ins' L0' order' (ix' t c)) /\
  (forall t c u d, in_box zero3 N t -> 0 <= c < dof -> in_box zero3 N u -> 0 <= d < dof ->
     compute_matrix size G dof elems (mapping G) Ke ins L0 order (ix t c) (ix u d) =
     compute_matrix size' G' dof elems' (mapping G') Ke ins' L0' order' (ix' t c) (ix' u d)) /\
  (forall i, compute_scalar size G dof elems (mapping G) ins L0 npts JW Sc order i =
     compute_scalar size' G' dof elems' (mapping G') ins' L0' npts JW Sc order' i).
Proof.
  intros O dim axes dof g2 g3 maxint size user LY e0 sizes L0 order g2' g3' maxint' size' user' LY' e0' sizes' L0' order' S S' Hdof Ho Ho'
    N G G' elems elems' mapping ix ix' Fe Ke npts JW Sc ins ins' HF.
  set (X := map (fun V : Z -> R => fun t c => V (ix t c)) ins).
  assert (H1 : Forall2 (fun (V : Z -> R) (x : nodal) => forall t c, in_box zero3 N t -> 0 <= c < dof -> V (ix t c) = x t c) ins X).
  { unfold X. clear. induction ins; cbn [map]; constructor; auto. }
  assert (H2 : Forall2 (fun (V : Z -> R) (x : nodal) => forall t c, in_box zero3 N t -> 0 <= c < dof -> V (ix' t c) = x t c) ins' X).
  { unfold X. clear -HF. induction HF; cbn [map]; constructor; auto. intros t c Ht Hc. symmetry. auto. }
  pose proof (C21_C51_assembly_is_serial_sum O g2 g3 maxint size dim axes user LY dof e0 sizes S Hdof Fe Ke npts JW Sc ins X L0 order Ho H1) as (A1 & A2 & A3).
  pose proof (C21_C51_assembly_is_serial_sum O g2' g3' maxint' size' dim axes user' LY' dof e0' sizes' S' Hdof Fe Ke npts JW Sc ins' X L0' order' Ho' H2) as (B1 & B2 & B3).
  split; [|split].
  - intros t c Ht Hc. etransitivity; [exact (A1 t c Ht Hc)|symmetry; exact (B1 t c Ht Hc)].
  - intros t c u d Ht Hc Hu Hd. etransitivity; [exact (A2 t c u d Ht Hc Hu Hd)|symmetry; exact (B2 t c u d Ht Hc Hu Hd)].
  - intros i. etransitivity; [exact (A3 i)|symmetry; exact (B3 i)].
Qed.
Print Assumptions C21_C51_independent_of_processes.

(** The point loop of one element visits points 0..nqp-1, each once (nqp >= 1). *)
Theorem C51_point_loop :
  forall count w0, 1 <= count ->
  point_loop (Z.to_nat (count + 1)) count (-1, w0) = Some (zseq 0 count, (-1, count - 1)).
Proof.
  intros count w0 H. replace (Z.to_nat (count+1)) with (S (S (Z.to_nat (count - 1)))) by lia.
  change (point_loop (S (S (Z.to_nat (count-1)))) count (-1, w0)) with
    (match point_loop (S (Z.to_nat (count-1))) count (0, 0) with Some (l, st2) => Some (0 :: l, st2) | None => None end).
  rewrite point_loop_spec by lia. rewrite (zseq_cons 0 count) by lia. repeat f_equal. lia.
Qed.
Print Assumptions C51_point_loop.

(** Two-dimensional periodic x clamped grid on 1 and on 6 processes: hypotheses met, the sums nontrivial. *)
Example C20_C21_C51_example :
  setup_ok exact_g2 exact_g3 (2^31-1) 6 2 ex_axes [-1;-1] ex_LY /\
  let e := (2, 1, 0) in
  map (fun r => existsb (triple_eqb e) (box (ly_elem_start (ex_LY r)) (ly_elem_width (ex_LY r)))) (zseq 0 6)
    = [true; false; false; false; false; false] /\
  closure (elem_off 2 ex_axes e) (basis_nen 2 ex_axes) (fun d => r_gstart (ly_node (ex_LY 0) d)) (fun d => r_gwidth (ly_node (ex_LY 0) d))
    = [12; 13; 14; 17; 18; 19; 22; 23; 24].
Proof. split; [exact ex_setup_ok|]. vm_compute. split; reflexivity. Qed.
