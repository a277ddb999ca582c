From Coq Require Import ZArith List Bool Lia.
From Coq Require Import ZifyBool ZifyNat.
From Verif Require Import Prelude PartModel PartSpec.
Import ListNotations.
Open Scope Z_scope.

Ltac destruct_ands := repeat match goal with H : _ /\ _ |- _ => destruct H end.

(** ** divisors *)
Lemma dec_to_divisor_spec : forall size fuel m, 1 <= m -> m <= Z.of_nat fuel ->
  let d := dec_to_divisor size fuel m in
  1 <= d <= m /\ size mod d = 0 /\ (forall x, d < x <= m -> size mod x <> 0).
Proof.
  intros size. induction fuel as [|f IH]; intros m Hm Hf; [lia|].
  cbn [dec_to_divisor]. replace (0 <? m) with true by lia. cbn [andb].
  destruct (Z.eqb_spec (size mod m) 0) as [E|E]; cbn [negb].
  - repeat split; auto; try lia. 
  - assert (m <> 1) by (intros ->; rewrite Z.mod_1_r in E; auto).
    destruct (IH (m-1) ltac:(lia) ltac:(lia)) as (H1 & H2 & H3).
    repeat split; auto; try lia.
    intros x Hx. destruct (Z.eq_dec x m) as [->|]; auto. apply H3; lia.
Qed.

Lemma divisor_from_spec : forall size g, 0 <= g ->
  let d := divisor_from size g in
  1 <= d <= Z.max 1 g /\ size mod d = 0 /\ (forall x, d < x <= Z.max 1 g -> size mod x <> 0).
Proof.
  intros size g Hg. unfold divisor_from.
  destruct (Z.eqb_spec g 0) as [->|].
  - pose proof (dec_to_divisor_spec size (Z.to_nat 1) 1 ltac:(lia) ltac:(lia)) as H. exact H.
  - pose proof (dec_to_divisor_spec size (Z.to_nat g) g ltac:(lia) ltac:(lia)) as H.
    replace (Z.max 1 g) with g by lia. exact H.
Qed.

Section Guess.
  Variable g2 : Z -> Z -> Z -> Z.
  Hypothesis g2_nonneg : forall a b c, 0 <= g2 a b c.

  Lemma part2_inner_spec : forall size M N m n c, 0 <= size -> part2_inner g2 size M N = (m, n, c) ->
    1 <= m /\ 0 <= n /\ m * n = size /\ c = cut2 M N m n.
  Proof.
    intros size M N m n c Hs H. unfold part2_inner in H. inversion H; subst; clear H.
    destruct (divisor_from_spec size (g2 size M N) (g2_nonneg _ _ _)) as (H1 & H2 & _).
    set (d := divisor_from size (g2 size M N)) in *.
    split; [lia|]. split; [apply Z.div_pos; lia|]. split; [|reflexivity].
    rewrite <- Z.divide_div_mul_exact by (try lia; apply Z.mod_divide; lia).
    rewrite Z.mul_comm. apply Z.div_mul. lia.
  Qed.

  Lemma PART2D_spec : forall size M N m n, 0 <= size -> PART2D g2 size M N = (m, n) ->
    0 <= m /\ 0 <= n /\ m * n = size.
  Proof.
    intros size M N m n Hs H. unfold PART2D in H.
    destruct (part2_inner g2 size M N) as [[m1 n1] a] eqn:E1.
    destruct (part2_inner g2 size N M) as [[n2 m2] b] eqn:E2.
    apply part2_inner_spec in E1; auto. apply part2_inner_spec in E2; auto.
    assert (Hx : forall x y : Z, (x, y) = (if a <? b then (m1, n1) else (m2, n2)) -> 0 <= x /\ 0 <= y /\ x * y = size).
    { intros x y Hxy. destruct (a <? b); inversion Hxy; subst; repeat split; try lia. }
    destruct (if a <? b then (m1, n1) else (m2, n2)) as [x y] eqn:Exy.
    specialize (Hx x y eq_refl). destruct Hx as (Hx & Hy & Hp).
    destruct ((M =? N) && (y <? x)); inversion H; subst; repeat split; try lia.
  Qed.

  Variable g3 : Z -> Z -> Z -> Z -> Z.
  Hypothesis g3_nonneg : forall a b c d, 0 <= g3 a b c d.

  Lemma down_from_in : forall x y, In y (down_from x) -> 1 <= y <= x.
  Proof.
    unfold down_from; intros x y H. apply in_map_iff in H. destruct H as (i & <- & Hi).
    apply in_zseq in Hi. lia.
  Qed.

  Definition good3 (size : Z) (st : Z * Z * Z * Z) : Prop :=
    let '(m, n, p, _) := st in 0 <= m /\ 0 <= n /\ 0 <= p /\ m * n * p = size.

  Lemma fold_good3 : forall size (f : Z*Z*Z*Z -> Z -> Z*Z*Z*Z) (l : list Z) st, good3 size st ->
    (forall st x, In x l -> good3 size st -> good3 size (f st x)) -> good3 size (fold_left f l st).
  Proof.
    intros size f l. induction l as [|x l IH]; intros st Hst Hf; cbn; auto.
    apply IH; [apply Hf; [left; auto|auto]|]. intros; apply Hf; [right; auto|auto].
  Qed.

  Lemma better_good3 : forall size a b, good3 size a -> good3 size b -> good3 size (better a b).
  Proof.
    intros size [[[a1 a2] a3] a4] [[[b1 b2] b3] b4] Ha Hb. unfold better. destruct (b4 <? a4); auto.
  Qed.

  Lemma div_exact' : forall a b, 1 <= b -> a mod b = 0 -> b * (a / b) = a.
  Proof. intros. pose proof (Z.div_mod a b ltac:(lia)). lia. Qed.

  Lemma part3_inner_spec : forall size M N P m n p c, 0 <= size ->
    part3_inner g2 g3 size M N P = (m, n, p, c) -> 0 <= m /\ 0 <= n /\ 0 <= p /\ m * n * p = size.
  Proof.
    intros size M N P m n p c Hs H. unfold part3_inner in H.
    destruct (divisor_from_spec size (g3 size M N P) (g3_nonneg _ _ _ _)) as (Hd1 & Hd2 & _).
    set (d := divisor_from size (g3 size M N P)) in *.
    destruct (PART2D g2 (size/d) N P) as [n0 p0] eqn:E0.
    apply PART2D_spec in E0; [|apply Z.div_pos; lia].
    pose proof (div_exact' size d ltac:(lia) Hd2).
    set (st0 := (d, n0, p0, cut3 M N P d n0 p0)) in *.
    assert (G0 : good3 size st0) by (cbn; repeat split; try lia; nia).
    match type of H with context [fold_left ?f (down_from d) st0] => set (f1 := f) in * end.
    assert (G1 : good3 size (fold_left f1 (down_from d) st0)).
    { apply fold_good3; auto. intros st x Hx Hst. apply down_from_in in Hx. unfold f1.
      destruct (Z.eqb_spec (size mod x) 0) as [Ex|]; cbn [negb]; auto.
      destruct (PART2D g2 (size/x) N P) as [a b] eqn:E. apply PART2D_spec in E; [|apply Z.div_pos; lia].
      apply better_good3; auto. pose proof (div_exact' size x ltac:(lia) Ex). cbn. repeat split; try lia; nia. }
    destruct (fold_left f1 (down_from d) st0) as [[[m1 n1] p1] c1] eqn:E1. 
    match type of H with context [fold_left ?f (down_from n1) ?s] => set (f2 := f) in *; set (st1 := s) in * end.
    assert (G2 : good3 size (fold_left f2 (down_from n1) st1)).
    { apply fold_good3; auto. intros st x Hx Hst. apply down_from_in in Hx. unfold f2.
      destruct (Z.eqb_spec (size mod x) 0) as [Ex|]; cbn [negb]; auto.
      destruct (PART2D g2 (size/x) M P) as [a b] eqn:E. apply PART2D_spec in E; [|apply Z.div_pos; lia].
      apply better_good3; auto. pose proof (div_exact' size x ltac:(lia) Ex). cbn. repeat split; try lia; nia. }
    destruct (fold_left f2 (down_from n1) st1) as [[[m2 n2] p2] c2] eqn:E2.
    match type of H with context [fold_left ?f (down_from p2) ?s] => set (f3 := f) in *; set (st2 := s) in * end.
    assert (G3 : good3 size (fold_left f3 (down_from p2) st2)).
    { apply fold_good3; auto. intros st x Hx Hst. apply down_from_in in Hx. unfold f3.
      destruct (Z.eqb_spec (size mod x) 0) as [Ex|]; cbn [negb]; auto.
      destruct (PART2D g2 (size/x) M N) as [a b] eqn:E. apply PART2D_spec in E; [|apply Z.div_pos; lia].
      apply better_good3; auto. pose proof (div_exact' size x ltac:(lia) Ex). cbn. repeat split; try lia; nia. }
    destruct (fold_left f3 (down_from p2) st2) as [[[m3 n3] p3] c3] eqn:E3.
    inversion H; subst. exact G3.
  Qed.

  Lemma PART3D_spec : forall maxint size M N P m n p, 0 <= size ->
    PART3D g2 g3 maxint size M N P = (m, n, p) -> 0 <= m /\ 0 <= n /\ 0 <= p /\ m * n * p = size.
  Proof.
    intros maxint size M N P m n p Hs H. unfold PART3D in H.
    destruct (part3_inner g2 g3 size M N P) as [[[m0 n0] p0] C0] eqn:E0.
    destruct (part3_inner g2 g3 size N M P) as [[[n1 m1] p1] C1] eqn:E1.
    destruct (part3_inner g2 g3 size P M N) as [[[p2 m2] n2] C2] eqn:E2.
    apply part3_inner_spec in E0; auto. apply part3_inner_spec in E1; auto. apply part3_inner_spec in E2; auto.
    set (s0 := ((m0, n0, p0), maxint)) in *.
    set (s1 := if C0 <? snd s0 then ((m0, n0, p0), C0) else s0) in *.
    set (s2 := if C1 <? snd s1 then ((m1, n1, p1), C1) else s1) in *.
    set (s3 := if C2 <? snd s2 then ((m2, n2, p2), C2) else s2) in *.
    assert (G : forall s : (Z*Z*Z)*Z, s = s0 \/ s = ((m0,n0,p0),C0) \/ s = ((m1,n1,p1),C1) \/ s = ((m2,n2,p2),C2) ->
      let '(a,b,c) := fst s in 0 <= a /\ 0 <= b /\ 0 <= c /\ a*b*c = size).
    { intros s [-> | [-> | [-> | ->]]]; cbn; repeat split; try lia. }
    assert (G3 : let '(a,b,c) := fst s3 in 0 <= a /\ 0 <= b /\ 0 <= c /\ a*b*c = size).
    { apply G. unfold s3, s2, s1. destruct (C0 <? snd s0); destruct (C1 <? _); destruct (C2 <? _); auto. }
    destruct s3 as [[[a b] c] dd]. cbn in G3, H.
    destruct G3 as (Ha & Hb & Hc & Hp).
    destruct ((M =? N) && (b <? a)); destruct ((M =? P) && (c <? _)); destruct ((N =? P) && (_ <? _));
      inversion H; subst; repeat split; try lia.
  Qed.

  (** switch: nonnegative; the given counts are kept; *)
  Definition kept (n n' : list Z) : Prop := Forall2 (fun a b => 1 <= a -> b = a) n n'.

  Lemma part_switch_spec : forall maxint size N n n', 1 <= size ->
    part_switch g2 g3 maxint size N n = Some n' ->
    length n' = length N /\ length n = length N /\ 1 <= Z.of_nat (length N) <= 3 /\
    kept n n' /\ Forall (fun a => 0 <= a) n'.
  Proof.
    intros maxint size N n n' Hs H. unfold part_switch in H.
    destruct N as [|L0 [|L1 [|L2 [|? ?]]]]; destruct n as [|n0 [|n1 [|n2 [|? ?]]]]; try discriminate.
    - inversion H; subst. cbn [length]. repeat split; try lia.
      + constructor; [|constructor]. destruct (Z.ltb_spec n0 1); lia.
      + constructor; [|constructor]. destruct (Z.ltb_spec n0 1); lia.
    - destruct (Part2D g2 size L0 L1 n0 n1) as [a b] eqn:E. inversion H; subst. cbn [length].
      unfold Part2D in E.
      assert (0 <= a /\ 0 <= b /\ (1 <= n0 -> a = n0) /\ (1 <= n1 -> b = n1)).
      { destruct (Z.ltb_spec n0 1), (Z.ltb_spec n1 1); cbn [andb] in E.
        - apply PART2D_spec in E; lia.
        - inversion E; subst. pose proof (Z.div_pos size b ltac:(lia) ltac:(lia)). repeat split; lia.
        - inversion E; subst. pose proof (Z.div_pos size a ltac:(lia) ltac:(lia)). repeat split; lia.
        - inversion E; subst. repeat split; lia. }
      split; [reflexivity|]. split; [reflexivity|]. split; [clear; lia|]. clear E.
      destruct_ands. split.
      + repeat constructor; assumption.
      + repeat constructor; assumption.
    - destruct (Part3D g2 g3 maxint size L0 L1 L2 n0 n1 n2) as [[a b] c] eqn:E. inversion H; subst. cbn [length].
      unfold Part3D in E.
      assert (0 <= a /\ 0 <= b /\ 0 <= c /\ (1 <= n0 -> a = n0) /\ (1 <= n1 -> b = n1) /\ (1 <= n2 -> c = n2)).
      { destruct (Z.ltb_spec n0 1) as [Hn0|Hn0], (Z.ltb_spec n1 1) as [Hn1|Hn1], (Z.ltb_spec n2 1) as [Hn2|Hn2]; cbn [andb] in E.
        - apply PART3D_spec in E; lia.
        - destruct (PART2D g2 (size/n2) L0 L1) as [x y] eqn:E2. inversion E; subst.
          apply PART2D_spec in E2; [lia|apply Z.div_pos; lia].
        - destruct (PART2D g2 (size/n1) L0 L2) as [x y] eqn:E2. inversion E; subst.
          apply PART2D_spec in E2; [lia|apply Z.div_pos; lia].
        - inversion E; subst. pose proof (Z.div_pos size (b*c) ltac:(lia) ltac:(nia)). repeat split; lia.
        - destruct (PART2D g2 (size/n0) L1 L2) as [x y] eqn:E2. inversion E; subst.
          apply PART2D_spec in E2; [lia|apply Z.div_pos; lia].
        - inversion E; subst. pose proof (Z.div_pos size (a*c) ltac:(lia) ltac:(nia)). repeat split; lia.
        - inversion E; subst. pose proof (Z.div_pos size (a*b) ltac:(lia) ltac:(nia)). repeat split; lia.
        - inversion E; subst. repeat split; lia. }
      split; [reflexivity|]. split; [reflexivity|]. split; [clear; lia|]. clear E.
      destruct_ands. split.
      + repeat constructor; assumption.
      + repeat constructor; assumption.
  Qed.

  Lemma zprod_pos_factors : forall l, Forall (fun a => 0 <= a) l -> 1 <= zprod l -> Forall (fun a => 1 <= a) l.
  Proof.
    induction l as [|a l IH]; intros HF Hp; constructor; inversion HF; subst; cbn in Hp; fold (zprod l) in Hp.
    - destruct (Z.eq_dec a 0) as [->|]; lia.
    - apply IH; auto. destruct (Z.leb_spec 1 (zprod l)); auto. exfalso. nia.
  Qed.

  Lemma partition_spec : forall maxint size rank N n n' i,
    partition g2 g3 maxint size rank N n = (Ok, n', i) ->
    1 <= size /\ 0 <= rank < size /\
    length n' = length N /\ 1 <= Z.of_nat (length N) <= 3 /\
    zprod n' = size /\ Forall (fun a => 1 <= a) n' /\ kept n n' /\
    Forall2 (fun Nk nk => nk <= Nk) N n' /\ i = rank_coords n' rank.
  Proof.
    intros maxint size rank N n n' i H. unfold partition in H.
    destruct (Z.ltb_spec size 1); [discriminate|].
    destruct (Z.ltb_spec rank 0), (Z.leb_spec size rank); cbn [orb] in H; try discriminate.
    destruct (part_switch g2 g3 maxint size N n) as [nn|] eqn:E; [|discriminate].
    apply part_switch_spec in E; [|lia]. destruct E as (L1 & L2 & L3 & HK & HF).
    destruct (Z.eqb_spec (zprod nn) size) as [Hp|]; cbn [negb] in H; [|discriminate].
    destruct (existsb _ _) eqn:EX; [discriminate|].
    inversion H; subst. repeat (split; [solve [auto|lia]|]).
    split; [apply zprod_pos_factors; auto; lia|]. split; auto. split; [|auto].
    clear - L1 EX. revert N L1 EX. induction n' as [|a l IH]; intros [|b N] L EX; cbn in *; try lia; constructor.
    - destruct (Z.ltb_spec b a); cbn in EX; [discriminate|lia].
    - apply IH; [lia|]. destruct (b <? a); cbn in EX; [discriminate|auto].
  Qed.

  (** Success does not depend on the rank. *)
  Lemma partition_rank_indep : forall maxint size r r' N n n' i, 0 <= r' < size ->
    partition g2 g3 maxint size r N n = (Ok, n', i) ->
    partition g2 g3 maxint size r' N n = (Ok, n', rank_coords n' r').
  Proof.
    intros maxint size r r' N n n' i Hr' H. unfold partition in *.
    destruct (size <? 1); [discriminate|].
    destruct ((r <? 0) || (size <=? r)); [discriminate|].
    replace ((r' <? 0) || (size <=? r')) with false by lia.
    destruct (part_switch g2 g3 maxint size N n); [|discriminate].
    destruct (negb _); [discriminate|]. destruct (existsb _ _); [discriminate|].
    inversion H; subst. reflexivity.
  Qed.
End Guess.

(** ** rank coordinates *)
Lemma rank_coords_in_grid : forall n r, Forall (fun a => 1 <= a) n -> 0 <= r ->
  in_grid n (rank_coords n r).
Proof.
  induction n as [|a n IH]; intros r HF Hr; cbn.
  - split; [auto|constructor].
  - inversion HF; subst.
    pose proof (Z.mod_pos_bound r a ltac:(lia)).
    pose proof (Z.div_mod r a ltac:(lia)).
    assert (Hd : (r - r mod a) / a = r / a).
    { replace (r - r mod a) with (r / a * a) by lia. apply Z.div_mul. lia. }
    destruct (IH (r/a)) as [HL HF2]; auto. { apply Z.div_pos; lia. }
    rewrite Hd. split; [cbn; rewrite HL; auto|]. constructor; [lia|auto].
Qed.

Lemma grid_index_rank_coords : forall n r, Forall (fun a => 1 <= a) n -> 0 <= r < zprod n ->
  grid_index n (rank_coords n r) = r.
Proof.
  induction n as [|a n IH]; intros r HF Hr; cbn in *; [lia|]. fold (zprod n) in Hr.
  inversion HF; subst.
  pose proof (Z.mod_pos_bound r a ltac:(lia)).
  pose proof (Z.div_mod r a ltac:(lia)).
  assert (Hd : (r - r mod a) / a = r / a).
  { replace (r - r mod a) with (r / a * a) by lia. apply Z.div_mul. lia. }
  rewrite Hd, IH; auto; [lia|]. split; [apply Z.div_pos; lia|apply Z.div_lt_upper_bound; lia].
Qed.

Lemma rank_coords_grid_index : forall n c, Forall (fun a => 1 <= a) n -> in_grid n c ->
  rank_coords n (grid_index n c) = c /\ 0 <= grid_index n c < zprod n.
Proof.
  induction n as [|a n IH]; intros c HF [HL HG]; inversion HG; subst; cbn.
  - split; [auto|lia].
  - inversion HF; subst. fold (zprod n).
    destruct (IH l') as [IH1 IH2]; auto. { split; auto. }
    set (g := grid_index n l') in *. 
    assert (Hm : (y + a * g) mod a = y).
    { rewrite Z.mul_comm, Z.mod_add by lia. apply Z.mod_small; lia. }
    rewrite Hm. replace (y + a*g - y) with (g * a) by ring. rewrite Z.div_mul by lia.
    rewrite IH1. split; [auto|nia].
Qed.

(** ** distribution *)
Lemma dist_tiles : forall P N, 1 <= P -> 0 <= N -> tiles P N (dist_s P N) (dist_n P N).
Proof.
  intros P N HP HN. unfold tiles, dist_s, dist_n, dist1d; cbn [fst snd].
  pose proof (Z.div_mod N P ltac:(lia)) as Hdm. pose proof (Z.mod_pos_bound N P ltac:(lia)) as Hmb.
  pose proof (Z.div_pos N P ltac:(lia) ltac:(lia)) as Hq.
  set (q := N / P) in *. set (w := N mod P) in *. clearbody q w.
  repeat split; auto.
  - destruct (Z.ltb_spec 0 w); lia.
  - intros r Hr. destruct (r <? w); lia.
  - intros r Hr. destruct (Z.ltb_spec r w), (Z.ltb_spec (r+1) w); try lia; nia.
  - destruct (Z.ltb_spec (P-1) w); nia.
Qed.

Lemma dist_balanced : forall P N r r', 1 <= P -> 0 <= N ->
  Z.abs (dist_n P N r - dist_n P N r') <= 1.
Proof.
  intros. unfold dist_n, dist1d; cbn [fst].
  destruct (r <? N mod P), (r' <? N mod P); lia.
Qed.

Lemma dist_pos : forall P N r, 1 <= P -> P <= N -> 1 <= dist_n P N r.
Proof.
  intros. unfold dist_n, dist1d; cbn [fst].
  pose proof (Z.div_le_lower_bound N P 1 ltac:(lia) ltac:(lia)).
  destruct (r <? N mod P); lia.
Qed.

(** ** consequences of tiling *)
Lemma tiles_mono : forall P N s w, tiles P N s w -> forall r r', 0 <= r -> r < r' -> r' < P -> s r + w r <= s r'.
Proof.
  intros P N s w (HP & H0 & Hw & Hs & He) r r' Hr Hrr Hr'.
  assert (Hind : forall d, 1 <= d -> r + d < P -> s r + w r <= s (r+d)).
  { intros d Hd. pattern d. apply Zlt_lower_bound_ind with (z:=1); [|exact Hd].
    intros x IH Hx Hlt. destruct (Z.eq_dec x 1) as [->|]; [rewrite Hs; lia|].
    specialize (IH (x-1) ltac:(lia) ltac:(lia)).
    replace (r+x) with (r+(x-1)+1) by lia. rewrite Hs by lia.
    specialize (Hw (r+(x-1)) ltac:(lia)). lia. }
  replace r' with (r+(r'-r)) by lia. apply Hind; lia.
Qed.

Lemma tiles_bounds : forall P N s w, tiles P N s w -> forall r, 0 <= r < P -> 0 <= s r /\ s r + w r <= N.
Proof.
  intros P N s w HT r Hr. pose proof HT as (HP & H0 & Hw & Hs & He). split.
  - destruct (Z.eq_dec r 0) as [->|]; [lia|].
    pose proof (tiles_mono P N s w HT 0 r ltac:(lia) ltac:(lia) ltac:(lia)). specialize (Hw 0 ltac:(lia)). lia.
  - destruct (Z.eq_dec r (P-1)) as [->|]; [lia|].
    pose proof (tiles_mono P N s w HT r (P-1) ltac:(lia) ltac:(lia) ltac:(lia)). specialize (Hw (P-1) ltac:(lia)). lia.
Qed.

Lemma tiles_cover : forall P N s w, tiles P N s w ->
  forall i, 0 <= i < N -> exists r, 0 <= r < P /\ s r <= i < s r + w r.
Proof.
  intros P N s w (HP & H0 & Hw & Hs & He) i Hi.
  assert (Hind : forall d, 0 <= d -> d < P -> i < s d + w d -> exists r, 0 <= r < P /\ s r <= i < s r + w r).
  { intros d Hd. pattern d. apply natlike_ind; [| |exact Hd].
    - intros _ Hlt. exists 0. lia.
    - intros x Hx IH HxP Hlt. destruct (Z.ltb_spec i (s (Z.succ x))) as [Hlow|Hhigh].
      + apply IH; [lia|]. rewrite <- Hs by lia. exact Hlow.
      + exists (Z.succ x). lia. }
  apply (Hind (P-1)); lia.
Qed.

Lemma tiles_disjoint : forall P N s w, tiles P N s w ->
  forall i r r', 0 <= r < P -> 0 <= r' < P -> s r <= i < s r + w r -> s r' <= i < s r' + w r' -> r = r'.
Proof.
  intros P N s w HT i r r' Hr Hr' Hi Hi'.
  destruct (Z.lt_trichotomy r r') as [H|[H|H]]; auto; exfalso.
  - pose proof (tiles_mono P N s w HT r r' ltac:(lia) H ltac:(lia)). lia.
  - pose proof (tiles_mono P N s w HT r' r ltac:(lia) H ltac:(lia)). lia.
Qed.

Lemma tiles_unique : forall P N s w, tiles P N s w ->
  forall i, 0 <= i < N -> exists! r, 0 <= r < P /\ s r <= i < s r + w r.
Proof.
  intros P N s w HT i Hi. destruct (tiles_cover P N s w HT i Hi) as (r & Hr & Hin).
  exists r. split; [auto|]. intros r' [Hr' Hin']. eapply tiles_disjoint; eauto.
Qed.

(** ** 2D completeness: the automatic process grid fits whenever some grid fits. *)
Section Complete.
  Variable g2 : Z -> Z -> Z -> Z.
  Hypothesis g2_nonneg : forall a b c, 0 <= g2 a b c.

  Lemma cut_fit : forall M N m n size, 1 <= M -> 1 <= N -> 1 <= m -> 1 <= n -> m * n = size -> size <= M * N ->
    (cut2 M N m n <= size + M*N - M - N <-> m <= M /\ n <= N).
  Proof.
    intros M N m n size HM HN Hm Hn Hs HMN. unfold cut2.
    assert (Hid : (M-m)*(N-n) = M*N + size - M*n - N*m) by nia.
    split.
    - intros H. assert (0 <= (M-m)*(N-n)) by lia.
      destruct (Z.leb_spec m M), (Z.leb_spec n N); [lia| | |]; exfalso.
      + assert (M = m) by nia. subst M. nia.
      + assert (N = n) by nia. subst N. nia.
      + nia.
    - intros [H1 H2]. assert (0 <= (M-m)*(N-n)) by nia. lia.
  Qed.

  Lemma mul_le_div : forall size a, 1 <= a -> (size mod a = 0) -> size = a * (size / a).
  Proof. intros. pose proof (Z.div_mod size a ltac:(lia)). lia. Qed.

  Lemma mul_pos_r : forall m n size, 1 <= size -> 1 <= m -> m * n = size -> 1 <= n.
  Proof. intros. destruct (Z.leb_spec 1 n); auto. exfalso. nia. Qed.
  Lemma mul_le_both : forall a b M N, 1 <= a <= M -> 1 <= b <= N -> a * b <= M * N.
  Proof. intros. nia. Qed.
  Lemma mul_swap_le : forall a b m n size, 1 <= a -> 1 <= b -> 1 <= m -> 1 <= n ->
    a * b = size -> m * n = size -> a <= m -> n <= b.
  Proof. intros. destruct (Z.leb_spec n b); auto. exfalso. nia. Qed.
  Lemma roots_exclusive : forall a b M N size x1 x2, 1 <= a -> 1 <= b -> 1 <= M -> 1 <= N -> 1 <= size ->
    a * b = size -> 0 <= x1 -> 0 <= x2 ->
    M * size < N * ((x1 + 1) * (x1 + 1)) -> N * size < M * ((x2 + 1) * (x2 + 1)) ->
    a <= x1 \/ b <= x2.
  Proof.
    intros a b M N size x1 x2 Ha Hb HM HN Hs Hab Hx1 Hx2 H1 H2.
    destruct (Z.leb_spec a x1) as [|K1]; auto.
    destruct (Z.leb_spec b x2) as [|K2]; auto. exfalso.
    assert (A1 : (x1+1)*(x1+1) <= a*a) by (apply Z.mul_le_mono_nonneg; lia).
    assert (A2 : (x2+1)*(x2+1) <= b*b) by (apply Z.mul_le_mono_nonneg; lia).
    assert (B1 : M * size < N * (a * a)) by (apply Z.lt_le_trans with (1:=H1); apply Z.mul_le_mono_nonneg_l; lia).
    assert (B2 : N * size < M * (b * b)) by (apply Z.lt_le_trans with (1:=H2); apply Z.mul_le_mono_nonneg_l; lia).
    assert (K3 : (M*size) * (N*size) < (N*(a*a)) * (M*(b*b))).
    { apply Z.mul_lt_mono_nonneg; try lia; apply Z.mul_nonneg_nonneg; lia. }
    replace ((N*(a*a)) * (M*(b*b))) with ((M*N)*((a*b)*(a*b))) in K3 by ring.
    rewrite Hab in K3. replace (M*size*(N*size)) with (M*N*(size*size)) in K3 by ring. lia.
  Qed.

  Lemma swap_fit : forall M N m n size, 1 <= m -> 1 <= n -> m * n = size -> m <= M /\ n <= N ->
    let '(x, y) := if (M =? N) && (n <? m) then (n, m) else (m, n) in
    1 <= x <= M /\ 1 <= y <= N /\ x * y = size.
  Proof.
    intros M N m n size Hm Hn Hs [H1 H2].
    destruct (Z.eqb_spec M N), (Z.ltb_spec n m); cbn [andb]; subst; repeat split; lia.
  Qed.

  Lemma PART2D_complete : forall size M N,
    1 <= size -> 1 <= M -> 1 <= N ->
    (* the guesses are at least the integer part of the exact roots, and at most M and N *)
    M * size < N * ((g2 size M N + 1) * (g2 size M N + 1)) -> g2 size M N <= M ->
    N * size < M * ((g2 size N M + 1) * (g2 size N M + 1)) -> g2 size N M <= N ->
    (exists a b, 1 <= a <= M /\ 1 <= b <= N /\ a * b = size) ->
    let '(m, n) := PART2D g2 size M N in 1 <= m <= M /\ 1 <= n <= N /\ m * n = size.
  Proof.
    intros size M N Hs HM HN Hg1 Hu1 Hg2 Hu2 (a & b & Ha & Hb & Hab).
    unfold PART2D.
    destruct (part2_inner g2 size M N) as [[m1 n1] c1] eqn:E1.
    destruct (part2_inner g2 size N M) as [[n2 m2] c2] eqn:E2.
    pose proof (part2_inner_spec g2 g2_nonneg size M N m1 n1 c1 ltac:(lia) E1) as (A1 & A2 & A3 & A4).
    pose proof (part2_inner_spec g2 g2_nonneg size N M n2 m2 c2 ltac:(lia) E2) as (B1 & B2 & B3 & B4).
    unfold part2_inner in E1, E2.
    pose proof (divisor_from_spec size (g2 size M N) (g2_nonneg _ _ _)) as (D1 & D2 & D3).
    pose proof (divisor_from_spec size (g2 size N M) (g2_nonneg _ _ _)) as (F1 & F2 & F3).
    assert (Em1 : divisor_from size (g2 size M N) = m1) by congruence.
    assert (En2 : divisor_from size (g2 size N M) = n2) by congruence.
    rewrite Em1 in D1, D2, D3. rewrite En2 in F1, F2, F3. clear E1 E2 Em1 En2.
    set (x1 := g2 size M N) in *. set (x2 := g2 size N M) in *.
    assert (Hx1 : 0 <= x1) by apply g2_nonneg. assert (Hx2 : 0 <= x2) by apply g2_nonneg. clearbody x1 x2.
    assert (Hn1 : 1 <= n1) by (apply (mul_pos_r m1 n1 size); auto).
    assert (Hm2 : 1 <= m2) by (apply (mul_pos_r n2 m2 size); auto).
    assert (HMN : size <= M * N) by (rewrite <- Hab; apply mul_le_both; auto).
    assert (Hfit : (m1 <= M /\ n1 <= N) \/ (m2 <= M /\ n2 <= N)).
    { assert (Hor : a <= x1 \/ b <= x2).
      { apply (roots_exclusive a b M N size); auto; lia. }
      clear D2 F2.
      destruct Hor as [H1|H1].
      - left. assert (a <= m1).
        { destruct (Z.leb_spec a m1); auto. exfalso. apply (D3 a); [lia|].
          rewrite <- Hab, Z.mul_comm; apply Z.mod_mul; lia. }
        assert (n1 <= b) by (apply (mul_swap_le a b m1 n1 size); auto; lia). lia.
      - right. assert (b <= n2).
        { destruct (Z.leb_spec b n2); auto. exfalso. apply (F3 b); [lia|].
          rewrite <- Hab; apply Z.mod_mul; lia. }
        assert (m2 <= a) by (apply (mul_swap_le b a n2 m2 size); auto; lia). lia. }
    clear D1 D2 D3 F1 F2 F3 Hu1 Hu2 Hg1 Hg2 Ha Hb Hab.
    assert (B4' : c2 = cut2 M N m2 n2) by (rewrite B4; unfold cut2; ring).
    assert (B3' : m2 * n2 = size) by (rewrite Z.mul_comm; exact B3).
    pose proof (cut_fit M N m1 n1 size HM HN A1 Hn1 A3 HMN) as C1.
    pose proof (cut_fit M N m2 n2 size HM HN Hm2 B1 B3' HMN) as C2.
    rewrite <- A4 in C1. rewrite <- B4' in C2.
    destruct (Z.ltb_spec c1 c2).
    - assert (m1 <= M /\ n1 <= N) by (apply C1; destruct Hfit as [Hf|Hf]; [apply C1 in Hf|apply C2 in Hf]; lia).
      apply swap_fit; auto.
    - assert (m2 <= M /\ n2 <= N) by (apply C2; destruct Hfit as [Hf|Hf]; [apply C1 in Hf|apply C2 in Hf]; lia).
      apply swap_fit; auto.
  Qed.
End Complete.

(** Any guess within one of the exact root in the direction that matters: correct rounding is enough. *)
Lemma rounded_root_ok : forall size M N g, 1 <= size -> 1 <= M -> 1 <= N -> size <= M * N -> 0 <= g ->
  4 * (M * size) < N * ((2*g+1) * (2*g+1)) ->
  (g = 0 \/ N * ((2*g-1) * (2*g-1)) <= 4 * (M * size)) ->
  M * size < N * ((g + 1) * (g + 1)) /\ g <= M.
Proof.
  intros size M N g Hs HM HN HMN Hg Hlt Hle. split; [nia|].
  destruct Hle as [->|Hle]; [lia|].
  destruct (Z.leb_spec g M); auto. exfalso.
  assert (4 * (M*size) <= 4 * (M * (M * N))) by nia.
  assert ((2*M+1)*(2*M+1) <= (2*g-1)*(2*g-1)) by nia.
  nia.
Qed.

(** ** Exactly rounded roots, computable: used to instantiate the guesses. *)
Definition exact_g2 (size M N : Z) : Z := (Z.sqrt (4*M*size/N) + 1) / 2.

(** Integer cube root by counting. *)
Fixpoint cbrt_up (fuel : nat) (c x : Z) : Z :=
  match fuel with
  | 0%nat => c
  | S f => if (c+1)*(c+1)*(c+1) <=? x then cbrt_up f (c+1) x else c
  end.
Definition cbrt (x : Z) : Z := cbrt_up (Z.to_nat x) 0 x.
Definition exact_g3 (size M N P : Z) : Z := (cbrt (8*(M*M)*size/(N*P)) + 1) / 2.

Lemma exact_g2_rounds : forall size M N, 1 <= size -> 1 <= M -> 1 <= N ->
  let g := exact_g2 size M N in
  0 <= g /\ 4 * (M * size) < N * ((2*g+1) * (2*g+1)) /\
  (g = 0 \/ N * ((2*g-1) * (2*g-1)) <= 4 * (M * size)).
Proof.
  intros size M N Hs HM HN. unfold exact_g2. cbv zeta.
  set (y := 4*M*size/N).
  assert (Hy1 : N * y <= 4*M*size) by (apply Z.mul_div_le; lia).
  assert (Hy2 : 4*M*size < N * (y+1)) by (pose proof (Z.mul_succ_div_gt (4*M*size) N ltac:(lia)); fold y in H; lia).
  assert (Hy0 : 0 <= y) by (apply Z.div_pos; nia).
  clearbody y.
  destruct (Z.sqrt_spec y Hy0) as [S1 S2]. pose proof (Z.sqrt_nonneg y).
  set (r := Z.sqrt y) in *. clearbody r.
  assert (Hg : exists g, (r+1)/2 = g /\ 2*g <= r+1 < 2*g+2).
  { exists ((r+1)/2). lia. }
  destruct Hg as (g & -> & Hg).
  assert (y + 1 <= (r+1)*(r+1)) by lia.
  split; [lia|]. split.
  - assert ((r+1)*(r+1) <= (2*g+1)*(2*g+1)) by nia. nia.
  - destruct (Z.eq_dec g 0); auto. right.
    assert ((2*g-1)*(2*g-1) <= r*r) by nia. nia.
Qed.

Lemma cbrt_up_spec : forall fuel c x, 0 <= c -> c*c*c <= x -> x < c + 1 + Z.of_nat fuel ->
  let r := cbrt_up fuel c x in 0 <= r /\ r*r*r <= x < (r+1)*(r+1)*(r+1).
Proof.
  induction fuel as [|f IH]; intros c x Hc Hle Hlt; cbn [cbrt_up]; cbv zeta.
  - repeat split; auto. assert (c+1 <= (c+1)*(c+1)*(c+1)) by nia. lia.
  - destruct (Z.leb_spec ((c+1)*(c+1)*(c+1)) x).
    + apply IH; lia.
    + repeat split; lia.
Qed.

Lemma exact_g3_rounds : forall size M N P, 1 <= size -> 1 <= M -> 1 <= N -> 1 <= P ->
  let g := exact_g3 size M N P in
  0 <= g /\ 8 * (M * M * size) < N * P * ((2*g+1) * (2*g+1) * (2*g+1)) /\
  (g = 0 \/ N * P * ((2*g-1) * (2*g-1) * (2*g-1)) <= 8 * (M * M * size)).
Proof.
  intros size M N P Hs HM HN HP. unfold exact_g3. cbv zeta.
  set (y := 8*(M*M)*size/(N*P)).
  assert (HNP : 1 <= N*P) by nia.
  assert (Hy1 : (N*P) * y <= 8*(M*M)*size) by (apply Z.mul_div_le; lia).
  assert (Hy2 : 8*(M*M)*size < (N*P) * (y+1)) by (pose proof (Z.mul_succ_div_gt (8*(M*M)*size) (N*P) ltac:(lia)); fold y in H; lia).
  assert (Hy0 : 0 <= y) by (apply Z.div_pos; nia).
  clearbody y.
  pose proof (cbrt_up_spec (Z.to_nat y) 0 y ltac:(lia) ltac:(lia) ltac:(lia)) as (R0 & R1 & R2).
  fold (cbrt y) in *. set (r := cbrt y) in *. clearbody r.
  assert (Hg : exists g, (r+1)/2 = g /\ 2*g <= r+1 < 2*g+2).
  { exists ((r+1)/2). lia. }
  destruct Hg as (g & -> & Hg).
  assert (y + 1 <= (r+1)*(r+1)*(r+1)) by lia.
  split; [lia|]. set (NP := N*P) in *. clearbody NP. split.
  - assert (A : (r+1)*(r+1) <= (2*g+1)*(2*g+1)) by nia.
    assert (B : (r+1)*(r+1)*(r+1) <= (2*g+1)*(2*g+1)*(2*g+1)) by (apply Z.mul_le_mono_nonneg; nia).
    assert (C : NP*(y+1) <= NP*((2*g+1)*(2*g+1)*(2*g+1))) by (apply Z.mul_le_mono_nonneg_l; lia). lia.
  - destruct (Z.eq_dec g 0); auto. right.
    assert (A : (2*g-1)*(2*g-1) <= r*r) by nia.
    assert (B : (2*g-1)*(2*g-1)*(2*g-1) <= r*r*r) by (apply Z.mul_le_mono_nonneg; nia).
    assert (C : NP*((2*g-1)*(2*g-1)*(2*g-1)) <= NP*y) by (apply Z.mul_le_mono_nonneg_l; lia). lia.
Qed.
