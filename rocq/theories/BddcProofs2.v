(** Lemmas about the boundary sets and the primal vertices handed to BDDC, and about the process layout. *)
From Coq Require Import ZArith List Bool Lia Permutation Sorted Reals.
From Coq Require Import ZifyBool ZifyNat.
From Verif Require Import Prelude RealOrd AxisModel AxisSpec AxisInitModel PartModel PartSpec PartProofs SetupModel SetupProofs SetupProps GridModel GridSpec GridProofs GridSetup ElemSpec BCSpec AsmProofs PcProofs2 BddcModel BddcSpec BddcProofs Box.
Import ListNotations.
Open Scope Z_scope.

(** * Masks *)
Definition count (f : Z -> bool) (l : list Z) : Z := zlen (filter f l).
Lemma count_upd (f : Z -> bool) i b : forall l, NoDup l -> In i l ->
  count (upd f i b) l + (if f i then 1 else 0) = count f l + (if b then 1 else 0).
Proof.
  assert (Out : forall l, ~ In i l -> count (upd f i b) l = count f l).
  { intros l H. unfold count. f_equal. apply filter_ext_in. intros a Ha. apply upd_other. intros ->. auto. }
  induction l as [|a l IH]; intros D Hi; [destruct Hi|]. inversion D; subst.
  destruct (Z.eq_dec a i) as [-> | Hn].
  - specialize (Out l H1). unfold count, zlen in *. cbn [filter]. rewrite upd_same. destruct b, (f i); cbn [length]; lia.
  - destruct Hi as [|Hi]; [contradiction|]. specialize (IH H2 Hi). unfold count, zlen in *. cbn [filter]. rewrite (upd_other f i a b Hn).
    destruct (f a); cbn [length]; lia.
Qed.

(** What the loops do to the masks, as a list of events. *)
Inductive event := Dir (i : Z) | Neu (i : Z).
Definition handle (e : event) (st : masks) : masks := match e with Dir i => mark_dirichlet i st | Neu i => mark_neumann i st end.
Definition ev_index (e : event) : Z := match e with Dir i => i | Neu i => i end.

Section Events.
  Variable m : Z.
  Definition ev_inv (evs : list event) (st : masks) : Prop :=
    let '(D, nd, N, nn) := st in
    (forall i, D i = true <-> In (Dir i) evs) /\
    (forall i, N i = true <-> In (Neu i) evs /\ ~ In (Dir i) evs) /\
    nd = count D (zseq 0 m) /\ nn = count N (zseq 0 m).

  Lemma handle_inv evs e st : 0 <= ev_index e < m -> ev_inv evs st -> ev_inv (evs ++ [e]) (handle e st).
  Proof.
    destruct st as [[[D nd] N] nn]. intros He (HD & HN & Ed & En). destruct e as [i|i]; cbn [handle ev_index] in *.
    - unfold mark_dirichlet, ev_inv.
      pose proof (count_upd D i true (zseq 0 m) (NoDup_zseq _ _) ltac:(apply in_zseq; lia)) as CD.
      pose proof (count_upd N i false (zseq 0 m) (NoDup_zseq _ _) ltac:(apply in_zseq; lia)) as CN.
      split; [|split; [|split]].
      + intros j. rewrite in_app_iff. cbn [In]. destruct (Z.eq_dec j i) as [-> | Hn].
        * rewrite upd_same. split; auto.
        * rewrite upd_other by auto. rewrite HD. split; [auto|]. intros [|[[= ->]|[]]]; [auto|contradiction].
      + intros j. rewrite !in_app_iff. cbn [In]. destruct (Z.eq_dec j i) as [-> | Hn].
        * rewrite upd_same. split; [discriminate|]. intros (_ & X). exfalso. apply X. right. auto.
        * rewrite upd_other by auto. rewrite HN. split.
          -- intros (A & B). split; [auto|]. intros [|[[= ->]|[]]]; [auto|contradiction].
          -- intros ([A|[A|[]]] & B); [|discriminate]. split; auto.
      + destruct (D i); lia.
      + destruct (N i); lia.
    - unfold mark_neumann. destruct (D i) eqn:EDi.
      + unfold ev_inv. split; [|split; [|split]]; [| |exact Ed|exact En].
        * intros j. rewrite in_app_iff, HD. cbn [In]. split; [auto|]. intros [|[|[]]]; [auto|discriminate].
        * intros j. rewrite !in_app_iff, HN. cbn [In]. split.
          -- intros (A & B). split; [auto|]. intros [|[|[]]]; [auto|discriminate].
          -- intros ([A|[[= ->]|[]]] & B); [split; auto|]. exfalso. apply B. left. apply HD. exact EDi.
      + pose proof (count_upd N i true (zseq 0 m) (NoDup_zseq _ _) ltac:(apply in_zseq; lia)) as CN.
        unfold ev_inv. split; [|split; [|split]]; [| |exact Ed|destruct (N i); lia].
        * intros j. rewrite in_app_iff, HD. cbn [In]. split; [auto|]. intros [|[|[]]]; [auto|discriminate].
        * intros j. rewrite !in_app_iff. cbn [In]. destruct (Z.eq_dec j i) as [-> | Hn].
          -- rewrite upd_same. split; [|auto]. intros _. split; [auto|]. intros [A|[A|[]]]; [|discriminate]. apply HD in A. congruence.
          -- rewrite upd_other by auto. rewrite HN. split.
             ++ intros (A & B). split; [auto|]. intros [|[|[]]]; [auto|discriminate].
             ++ intros ([A|[[= ->]|[]]] & B); [split; auto|contradiction].
  Qed.
  Lemma handle_all : forall evs pre st, (forall e, In e evs -> 0 <= ev_index e < m) -> ev_inv pre st ->
    ev_inv (pre ++ evs) (fold_left (fun st e => handle e st) evs st).
  Proof.
    induction evs as [|e evs IH]; intros pre st H Hst; cbn [fold_left]; [rewrite app_nil_r; auto|].
    replace (pre ++ e :: evs) with ((pre ++ [e]) ++ evs) by (rewrite <- app_assoc; reflexivity).
    apply IH; [intros; apply H; right; auto|]. apply handle_inv; [apply H; left; auto|auto].
  Qed.
End Events.

Lemma local_dof_inj bs shape t u c c' : in_box zero3 shape t -> in_box zero3 shape u -> 0 <= c < bs -> 0 <= c' < bs ->
  c + bs * lin shape t = c' + bs * lin shape u -> t = u /\ c = c'.
Proof.
  intros Ht Hu Hc Hc' E. destruct (radix_inj c (lin shape t) c' (lin shape u) bs) as (E1 & E2); [lia|lia|]. split; auto. apply (lin_inj shape); auto.
Qed.
Lemma local_dof_range bs shape t c : 1 <= bs -> in_box zero3 shape t -> 0 <= c < bs -> 0 <= local_dof shape bs t c < bs * vol shape.
Proof.
  intros Hbs Ht Hc. assert (Hl : 0 <= lin shape t < vol shape).
  { destruct t as [[i j] k]. unfold in_box, zero3 in Ht. apply lin_range; lia. }
  unfold local_dof. assert (0 <= bs * lin shape t) by (apply Z.mul_nonneg_nonneg; lia).
  assert (bs * (lin shape t + 1) <= bs * vol shape) by (apply Z.mul_le_mono_nonneg_l; lia). lia.
Qed.
Lemma local_dof_surj bs shape y : 1 <= bs -> (forall d, 0 <= d < 3 -> 1 <= shape d) -> 0 <= y < bs * vol shape -> exists t c, in_box zero3 shape t /\ 0 <= c < bs /\ y = local_dof shape bs t c.
Proof.
  intros Hbs Hshape Hy. pose proof (Hshape 0 ltac:(lia)). pose proof (Hshape 1 ltac:(lia)). pose proof (Hshape 2 ltac:(lia)).
  assert (Hq : 0 <= y / bs < vol shape) by (split; [apply Z.div_pos; lia|apply Z.div_lt_upper_bound; lia]).
  destruct (lin_unlin shape (y / bs) ltac:(lia) ltac:(lia) ltac:(lia) Hq) as (E & B).
  exists (unlin shape (y / bs)), (y mod bs). split; [exact B|]. split; [apply Z.mod_pos_bound; lia|].
  unfold local_dof. rewrite E. pose proof (Z.div_mod y bs ltac:(lia)). lia.
Qed.


Section Boundary.
  Variable dim bs : Z.
  Variable shape : Z -> Z.
  Variable atbnd : Z -> Z -> bool.
  Variable field : Z -> Z -> list Z.

  (** The local node t lies on the face (d,s) of the local box. *)
  Definition at_face (t : triple) (d s : Z) : bool := atbnd d s && (coord t d =? (if s =? 0 then 0 else shape d - 1)).
  Definition node_events (t : triple) (index : Z) : list event :=
    flat_map (fun dir => flat_map (fun side => if at_face t dir side then
      map (fun f => Dir (f + bs * index)) (field dir side) ++ map (fun c => Neu (c + bs * index)) (zseq 0 bs) else []) (zseq 0 2)) (zseq 0 dim).
  Lemma mark_node_events t index st : mark_node dim bs shape atbnd field t index st = fold_left (fun st e => handle e st) (node_events t index) st.
  Proof.
    destruct t as [[i j] k]. unfold mark_node, node_events. rewrite fold_left_flat_map.
    revert st. induction (zseq 0 dim) as [|d l IH]; intros st; auto. cbn [fold_left]. rewrite <- IH. f_equal. clear IH.
    rewrite fold_left_flat_map. revert st. induction (zseq 0 2) as [|s l2 IH]; intros st; auto. cbn [fold_left]. rewrite <- IH. f_equal. clear IH.
    unfold at_face, coord.
    match goal with |- (if ?b then _ else _) = _ => destruct b end; auto.
    rewrite fold_left_app, !fold_left_map'. reflexivity.
  Qed.

  Lemma fold_counter {A} (f : triple -> Z -> A -> A) : forall l st k,
    fold_left (fun s t => (f t (snd s) (fst s), snd s + 1)) l (st, k) =
    (fold_left (fun st p => f (snd p) (fst p) st) (combine (zseq k (zlen l)) l) st, k + zlen l).
  Proof.
    induction l as [|t l IH]; intros st k; cbn [fold_left].
    - unfold zlen. cbn [length]. f_equal. lia.
    - rewrite IH. cbn [fst snd].
      assert (E : zseq k (zlen (t :: l)) = k :: zseq (k+1) (zlen l)).
      { unfold zlen. cbn [length]. unfold zseq. replace (Z.to_nat (Z.of_nat (Datatypes.S (length l)))) with (Datatypes.S (length l)) by lia.
        rewrite Nat2Z.id. cbn [seq map]. f_equal; [lia|]. rewrite <- seq_shift, map_map. apply map_ext. intros a. lia. }
      rewrite E. cbn [combine fold_left fst snd]. f_equal. unfold zlen. cbn [length]. lia.
  Qed.

  Hypothesis Hbs : 1 <= bs.
  Hypothesis Hshape : forall d, 0 <= d < 3 -> 1 <= shape d.
  Hypothesis Hfield : forall d s f, 0 <= d < dim -> 0 <= s < 2 -> In f (field d s) -> 0 <= f < bs.

  Definition all_events : list event := flat_map (fun t => node_events t (lin shape t)) (box zero3 shape).
  Lemma mark_all_events : mark_all dim bs shape atbnd field = fold_left (fun st e => handle e st) all_events (fun _ => false, 0, fun _ => false, 0).
  Proof.
    unfold mark_all. rewrite (fold_counter (mark_node dim bs shape atbnd field)). cbn [fst].
    pose proof (combine_box triple shape (fun t => t)) as E. rewrite map_id in E. unfold zlen. rewrite E by (intros d Hd; specialize (Hshape d Hd); lia).
    rewrite fold_left_map'. unfold all_events. rewrite fold_left_flat_map. cbn [fst snd].
    assert (G : forall l st, fold_left (fun c a => mark_node dim bs shape atbnd field a (lin shape a) c) l st =
      fold_left (fun c a => fold_left (fun st e => handle e st) (node_events a (lin shape a)) c) l st).
    { induction l as [|a l IH]; intros st; auto. cbn [fold_left]. rewrite mark_node_events. apply IH. }
    apply G.
  Qed.

  Lemma in_node_events t index e : In e (node_events t index) <-> exists d s, 0 <= d < dim /\ 0 <= s < 2 /\ at_face t d s = true /\
    ((exists f, In f (field d s) /\ e = Dir (f + bs * index)) \/ (exists c, 0 <= c < bs /\ e = Neu (c + bs * index))).
  Proof.
    unfold node_events. rewrite in_flat_map. split.
    - intros (d & Hd & H). apply in_flat_map in H. destruct H as (s & Hs & H). apply in_zseq in Hd, Hs.
      destruct (at_face t d s) eqn:E; [|destruct H]. exists d, s. split; [lia|]. split; [lia|]. split; [auto|].
      apply in_app_iff in H. destruct H as [H|H]; apply in_map_iff in H; destruct H as (f & <- & Hf); [left|right]; exists f; split; auto. apply in_zseq in Hf. lia.
    - intros (d & s & Hd & Hs & E & H). exists d. split; [apply in_zseq; lia|]. apply in_flat_map. exists s. split; [apply in_zseq; lia|]. rewrite E.
      apply in_app_iff. destruct H as [(f & Hf & ->)|(c & Hc & ->)]; [left|right]; apply in_map_iff; [exists f|exists c]; split; auto. apply in_zseq. lia.
  Qed.

  Lemma in_all_events e : In e all_events <-> exists t d s, in_box zero3 shape t /\ 0 <= d < dim /\ 0 <= s < 2 /\ at_face t d s = true /\
    ((exists f, In f (field d s) /\ e = Dir (local_dof shape bs t f)) \/ (exists c, 0 <= c < bs /\ e = Neu (local_dof shape bs t c))).
  Proof.
    unfold all_events. rewrite in_flat_map. split.
    - intros (t & Ht & H). apply In_box in Ht. apply in_node_events in H. destruct H as (d & s & H). exists t, d, s. split; auto.
    - intros (t & d & s & Ht & H). exists t. split; [apply In_box; auto|]. apply in_node_events. exists d, s. exact H.
  Qed.
  Lemma dir_event t c : in_box zero3 shape t -> 0 <= c < bs ->
    In (Dir (local_dof shape bs t c)) all_events <-> exists d s, 0 <= d < dim /\ 0 <= s < 2 /\ at_face t d s = true /\ In c (field d s).
  Proof.
    intros Ht Hc. rewrite in_all_events. split.
    - intros (u & d & s & Hu & Hd & Hs & E & [(f & Hf & X)|(c' & _ & X)]); [|discriminate]. injection X as X.
      destruct (local_dof_inj bs shape t u c f Ht Hu Hc (Hfield d s f Hd Hs Hf) X) as (<- & <-). exists d, s. auto.
    - intros (d & s & Hd & Hs & E & Hf). exists t, d, s. split; [auto|]. split; [auto|]. split; [auto|]. split; [auto|]. left. exists c. auto.
  Qed.
  Lemma neu_event t c : in_box zero3 shape t -> 0 <= c < bs ->
    In (Neu (local_dof shape bs t c)) all_events <-> exists d s, 0 <= d < dim /\ 0 <= s < 2 /\ at_face t d s = true.
  Proof.
    intros Ht Hc. rewrite in_all_events. split.
    - intros (u & d & s & Hu & Hd & Hs & E & [(f & Hf & X)|(c' & Hc' & X)]); [discriminate|]. injection X as X.
      destruct (local_dof_inj bs shape t u c c' Ht Hu Hc Hc' X) as (<- & <-). exists d, s. auto.
    - intros (d & s & Hd & Hs & E). exists t, d, s. split; [auto|]. split; [auto|]. split; [auto|]. split; [auto|]. right. exists c. auto.
  Qed.

  Lemma boundary_spec : let '((nd, ld), (nn, ln)) := bddc_boundary dim bs shape atbnd field in
    nd = zlen ld /\ nn = zlen ln /\ StronglySorted Z.lt ld /\ StronglySorted Z.lt ln /\
    (forall y, In y ld \/ In y ln -> 0 <= y < bs * vol shape) /\
    (forall t c, in_box zero3 shape t -> 0 <= c < bs ->
      (In (local_dof shape bs t c) ld <-> exists d s, 0 <= d < dim /\ 0 <= s < 2 /\ at_face t d s = true /\ In c (field d s)) /\
      (In (local_dof shape bs t c) ln <-> (exists d s, 0 <= d < dim /\ 0 <= s < 2 /\ at_face t d s = true) /\
         ~ (exists d s, 0 <= d < dim /\ 0 <= s < 2 /\ at_face t d s = true /\ In c (field d s)))).
  Proof.
    unfold bddc_boundary. set (m := bs * shape 0 * shape 1 * shape 2).
    assert (Em : m = bs * vol shape) by (unfold m, vol; ring).
    assert (Hev : forall e, In e all_events -> 0 <= ev_index e < m).
    { intros e He. apply in_all_events in He. destruct He as (t & d & s & Ht & Hd & Hs & _ & [(f & Hf & ->)|(c & Hc & ->)]); cbn [ev_index]; rewrite Em; apply local_dof_range; auto.
      apply (Hfield d s f); auto. }
    rewrite mark_all_events.
    pose proof (handle_all m all_events [] (fun _ => false, 0, fun _ => false, 0) Hev) as H. cbn [app] in H.
    destruct (fold_left (fun st e => handle e st) all_events (fun _ => false, 0, fun _ => false, 0)) as [[[D nd] N] nn].
    assert (H0 : ev_inv m [] (fun _ => false, 0, fun _ => false, 0)).
    { unfold ev_inv. split; [intros; split; [discriminate|intros []]|]. split; [intros; split; [discriminate|intros ([] & _)]|].
      unfold count. assert (F : forall l : list Z, filter (fun _ => false) l = []) by (induction l; auto). rewrite F. split; reflexivity. }
    specialize (H H0). destruct H as (HD & HN & Ed & En).
    assert (Sf : forall f, StronglySorted Z.lt (filter f (zseq 0 m))).
    { intros f. assert (G : forall l, StronglySorted Z.lt l -> StronglySorted Z.lt (filter f l)).
      { intros l Hl. induction Hl as [|a l Hl IH Ha]; cbn [filter]; [constructor|]. destruct (f a); auto. constructor; auto.
        apply List.Forall_forall. intros y Hy. apply filter_In in Hy. apply (proj1 (List.Forall_forall _ _) Ha). tauto. }
      apply G. pose proof (sorted_comps 0 0 m 0) as X. rewrite (map_ext _ (fun c => c)) in X by (intros; lia). rewrite map_id in X. exact X. }
    split; [exact Ed|]. split; [exact En|]. split; [apply Sf|]. split; [apply Sf|]. split.
    - intros y [Hy|Hy]; apply filter_In in Hy; destruct Hy as (Hy & _); apply in_zseq in Hy; lia.
    - intros t c Ht Hc. rewrite !filter_In, HD, HN, (dir_event t c Ht Hc), (neu_event t c Ht Hc).
      assert (Hr : In (local_dof shape bs t c) (zseq 0 m)) by (apply in_zseq; pose proof (local_dof_range bs shape t c Hbs Ht Hc); lia).
      tauto.
  Qed.
End Boundary.

(** * Prescribed degrees of freedom as a set *)
Lemma lookup_in {V} c (l : list (Z * V)) : lookup c l <> None <-> In c (map fst l).
Proof.
  unfold lookup. induction l as [|[k v] l IH]; cbn [find map fst]; [cbn; tauto|]. cbn [In].
  destruct (k =? c) eqn:E; cbn [option_map].
  - split; [left; lia|discriminate].
  - rewrite IH. split; [auto|]. intros [->|]; [lia|auto].
Qed.
Lemma prescribed_iff dim periodic N value table t c :
  node_prescribed dim periodic N value table t c <> None <->
  exists d s, 0 <= d < dim /\ 0 <= s < 2 /\ node_on_face periodic N t (d, s) = true /\ In c (map fst (value d s)).
Proof.
  unfold node_prescribed.
  assert (G : forall l cur, fold_left (fun cur f => if node_on_face periodic N t f then
      match lookup c (value (fst f) (snd f)) with
      | Some v => Some (match table with Some T => T t c | None => v end) | None => cur end else cur) l cur <> None <->
    cur <> None \/ exists f, In f l /\ node_on_face periodic N t f = true /\ In c (map fst (value (fst f) (snd f)))).
  { induction l as [|f l IH]; intros cur; cbn [fold_left].
    - split; [auto|]. intros [|(f & [] & _)]; auto.
    - rewrite IH. pose proof (lookup_in c (value (fst f) (snd f))) as L.
      destruct (node_on_face periodic N t f) eqn:Ef; [destruct (lookup c (value (fst f) (snd f))) as [v|] eqn:El|].
      + split.
        * intros _. right. exists f. split; [left; auto|]. split; auto. apply L. congruence.
        * intros _. left. discriminate.
      + split.
        * intros [|(g & Hg & X)]; [auto|]. right. exists g. split; [right; auto|auto].
        * intros [|(g & [<-|Hg] & Eg & Hc)]; [auto| |right; exists g; auto]. exfalso. apply L in Hc. congruence.
      + split.
        * intros [|(g & Hg & X)]; [auto|]. right. exists g. split; [right; auto|auto].
        * intros [|(g & [<-|Hg] & Eg & Hc)]; [auto|congruence|right; exists g; auto]. }
  rewrite G. split.
  - intros [X|(f & Hf & Ef & Hc)]; [congruence|]. unfold faces in Hf. apply in_flat_map in Hf. destruct Hf as (d & Hd & Hf). apply in_zseq in Hd.
    destruct Hf as [<-|[<-|[]]]; [exists d, 0|exists d, 1]; (split; [lia|split; [lia|auto]]).
  - intros (d & s & Hd & Hs & Ef & Hc). right. exists (d, s). split; [|auto]. unfold faces. apply in_flat_map. exists d. split; [apply in_zseq; lia|].
    assert (X : s = 0 \/ s = 1) by lia. destruct X as [-> | ->]; [left|right; left]; auto.
Qed.

(** * Layout *)
Section Layout.
  Context {O : KnotOrd}.
  Variable g2 : Z -> Z -> Z -> Z.
  Variable g3 : Z -> Z -> Z -> Z -> Z.
  Variable maxint size dim : Z.
  Variable axes : Z -> axis O.
  Variable user : list Z.
  Variable LY : Z -> layout.
  Hypothesis S : setup_ok g2 g3 maxint size dim axes user LY.

  Lemma bd_axis r d : 0 <= r < size -> 0 <= d < dim ->
    let n := ly_node (LY r) d in let gend := r_gstart n + r_gwidth n in
    0 <= ly_coord (LY r) d < ly_procs (LY r) d /\ 0 <= r_gstart n /\ 1 <= r_gwidth n /\ gend <= ax_m (axes d) - ax_p (axes d) /\
    (ly_coord (LY r) d = 0 <-> r_gstart n = 0) /\ (ly_coord (LY r) d = ly_procs (LY r) d - 1 <-> gend = ax_m (axes d) - ax_p (axes d)) /\
    r_lstart n = r_gstart n /\ 1 <= ax_p (axes d) <= r_gwidth n - 1.
  Proof.
    intros Hr Hd. destruct (setup_form g2 g3 maxint size dim axes user LY S) as (n & Hn & HL & Hdim & Hz & HP & HLY).
    pose proof (setup_wf g2 g3 maxint size dim axes user LY S d Hd) as (l & L & He). clear S. rewrite (HLY r Hr). unfold layout_of. cbn [ly_node ly_coord ly_procs].
    replace (d <? dim) with true by lia.
    pose proof (pad_coords n r d Hn ltac:(lia) ltac:(lia)) as Hc. specialize (HP d ltac:(lia)).
    set (P := pad 1 n d) in *. set (c := pad 0 (rank_coords n r) d) in *. clearbody P c. clear HLY Hn HL Hz.
    fold (es P (axes d) c). fold (ew P (axes d) c).
    destruct (elem_block P (axes d) c HP Hc) as (B1 & B2 & B3 & B4 & B5 & B6 & B7).
    pose proof (wf_ends _ _ L He) as (W1 & W2 & W3).
    pose proof L as (_ & (Hp & Hm & _) & _).
    set (f := es P (axes d) c) in *. set (w := ew P (axes d) c) in *.
    pose proof (span_at_gap (axes d) l L 0 f ltac:(lia) ltac:(lia) ltac:(lia)) as G1.
    pose proof (span_at_gap (axes d) l L f (f + w - 1) ltac:(lia) ltac:(lia) ltac:(lia)) as G2.
    pose proof (span_at_gap (axes d) l L (f + w - 1) (ax_nel (axes d) - 1) ltac:(lia) ltac:(lia) ltac:(lia)) as G3.
    unfold node_range, geom_range. cbn [r_lstart r_lwidth r_gstart r_gwidth].
    split; [lia|]. split; [lia|]. split; [lia|]. split; [lia|]. split; [|split; [|split; [lia|lia]]].
    - split; [intros E; rewrite (B6 E), W2; lia|]. intros E. destruct (Z.eq_dec c 0) as [|Hc0]; auto. exfalso.
      assert (1 <= f); [|lia]. assert (f <> 0); [|lia]. intros Ef.
      assert (X : tiles P (ax_nel (axes d)) (dist_s P (ax_nel (axes d))) (dist_n P (ax_nel (axes d)))) by (apply dist_tiles; lia).
      destruct (elem_block P (axes d) (c - 1) HP ltac:(lia)) as (C1 & C2 & _ & C4 & _). specialize (C4 ltac:(lia)). replace (c - 1 + 1) with c in C4 by lia. fold f in C4. lia.
    - split.
      + intros E. specialize (B5 E). rewrite B5. rewrite W3. lia.
      + intros E. destruct (Z.eq_dec c (P - 1)) as [|Hc0]; auto. specialize (B7 ltac:(lia)). lia.
  Qed.
End Layout.
