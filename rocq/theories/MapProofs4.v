(** Shape functions, isoparametric identities, normals. *)
From Coq Require Import ZArith List Bool Lia Reals Lra Psatz.
From Coq Require Import ZifyBool ZifyNat.
From Coquelicot Require Import Coquelicot.
From Verif Require Import Prelude GridSpec GridProofs MapModel MapSpec MapProofs MapProofs2 MapProofs3.
Import ListNotations.
Open Scope R_scope.

(** ** The formulas of ShapeFunctions as sums *)
Section ShFormulas.
  Variables (dim order : Z) (E : inv_map) (N old : nders).
  Let F := shape_functions dim order E N old.
  Lemma shf1 i n : (1 <= order)%Z -> n1 F i n = S_ dim (fun a => n1 N a n * e1 E i a).
  Proof. intros Ho. unfold F, shape_functions. cbn [n1]. replace (order <? 1)%Z with false by lia. rewrite (loop_sum dim _ (fun a => n1 N a n * e1 E i a)) by auto. ring. Qed.
  Lemma shf2 j i n : (2 <= order)%Z -> n2 F j i n = S_ dim (fun a => S_ dim (fun b => n2 N b a n * e1 E i a * e1 E j b) + n1 N a n * e2 E j i a).
  Proof.
    intros Ho. unfold F, shape_functions. cbn [n2]. replace (order <? 2)%Z with false by lia.
    rewrite (loop_sum dim _ (fun a => S_ dim (fun b => n2 N b a n * e1 E i a * e1 E j b) + n1 N a n * e2 E j i a)); [ring|].
    intros a Ha s. rewrite (loop_sum dim _ (fun b => n2 N b a n * e1 E i a * e1 E j b)) by auto. ring.
  Qed.
  Lemma shf3 k j i n : (3 <= order)%Z -> n3 F k j i n = S_ dim (fun a => S_ dim (fun b => S_ dim (fun c => n3 N c b a n * e1 E i a * e1 E j b * e1 E k c)
       + n2 N b a n * (e1 E i a * e2 E k j b + e1 E j b * e2 E k i a + e1 E k b * e2 E j i a)) + n1 N a n * e3 E k j i a).
  Proof.
    intros Ho. unfold F, shape_functions. cbn [n3]. replace (order <? 3)%Z with false by lia.
    set (g2 := fun a b => S_ dim (fun c => n3 N c b a n * e1 E i a * e1 E j b * e1 E k c)
       + n2 N b a n * (e1 E i a * e2 E k j b + e1 E j b * e2 E k i a + e1 E k b * e2 E j i a)).
    rewrite (loop_sum dim _ (fun a => S_ dim (fun b => g2 a b) + n1 N a n * e3 E k j i a)); [unfold g2; ring|].
    intros a Ha s. rewrite (loop_sum dim _ (fun b => g2 a b)); [ring|].
    intros b Hb s'. rewrite (loop_sum dim _ (fun c => n3 N c b a n * e1 E i a * e1 E j b * e1 E k c)) by auto. unfold g2. ring.
  Qed.
End ShFormulas.

(** ** Symmetry *)
Lemma S3_swap23 n (f : Z -> Z -> Z -> R) : S_ n (fun a => S_ n (fun b => S_ n (fun c => f a b c))) = S_ n (fun a => S_ n (fun b => S_ n (fun c => f a c b))).
Proof. apply S_ext. intros a Ha. apply (S_comm n n (fun b c => f a b c)). Qed.

Lemma S2_half n (g h f f' : Z -> Z -> R) : (forall a b, (1 <= a <= n)%Z -> (1 <= b <= n)%Z -> f a b = g a b + h a b) ->
  (forall a b, (1 <= a <= n)%Z -> (1 <= b <= n)%Z -> f' a b = g b a + h a b) -> S_ n (fun a => S_ n (fun b => f a b)) = S_ n (fun a => S_ n (fun b => f' a b)).
Proof.
  intros H1 H2. transitivity (S_ n (fun a => S_ n (fun b => g a b)) + S_ n (fun a => S_ n (fun b => h a b))).
  - rewrite S_plus. apply S_ext. intros a Ha. rewrite S_plus. apply S_ext. intros b Hb. auto.
  - rewrite (S_comm n n (fun a b => g a b)). rewrite S_plus. apply S_ext. intros a Ha. rewrite S_plus. apply S_ext. intros b Hb. symmetry. auto.
Qed.

Section InvSym.
  Variables (dim order : Z) (X : nders) (old : inv_map).
  Hypothesis HS : symmetric dim order dim X.
  Let E := inverse_map dim order X old.
  Let d i := (1 <= i <= dim)%Z.
  Lemma e2_sym i j c : (2 <= order)%Z -> d i -> d j -> e2 E i j c = e2 E j i c.
  Proof.
    intros Ho Hi Hj. unfold E. rewrite !inv2 by auto. f_equal. apply S_ext. intros k Hk. f_equal. rewrite S_comm. apply S_ext. intros a Ha. apply S_ext. intros b Hb.
    destruct (HS k Hk) as [S2 _]. rewrite (S2 Ho a b Ha Hb). ring.
  Qed.
  Lemma e3_sym i j k c : (3 <= order)%Z -> d i -> d j -> d k -> e3 E i j k c = e3 E j i k c /\ e3 E i j k c = e3 E i k j c.
  Proof.
    intros Ho Hi Hj Hk. unfold E. rewrite !inv3 by auto. fold E. split; f_equal.
    - (* exchange the first two: b <-> c *)
      rewrite (S3_swap23 dim). symmetry. rewrite (S3_swap23 dim). symmetry. 
      apply S_ext. intros a Ha. apply S_ext. intros l Hl. rewrite <- !S_plus. f_equal.
      + rewrite S_comm. apply S_ext. intros b Hb. apply S_ext. intros c' Hc. destruct (HS l Hl) as [_ S3]. destruct (S3 Ho b c' a Hb Hc Ha) as [Q _]. rewrite Q. ring.
      + apply S_ext. intros b Hb. rewrite (e2_sym i j) by (auto; lia). ring.
    - (* exchange the last two: a <-> b *)
      apply (S2_half dim
        (fun a b => S_ dim (fun l => S_ dim (fun c' => n3 X c' b a l * e1 E k a * e1 E j b * e1 E i c' * e1 E l c) + n2 X b a l * (e1 E k a * e2 E i j b + e1 E j b * e2 E i k a) * e1 E l c))
        (fun a b => S_ dim (fun l => n2 X b a l * (e1 E i b * e2 E j k a) * e1 E l c))).
      + intros a b Ha Hb. rewrite S_plus. apply S_ext. intros l Hl. ring.
      + intros a b Ha Hb. rewrite S_plus. apply S_ext. intros l Hl. destruct (HS l Hl) as [S2 S3]. rewrite (e2_sym k j) by (auto; lia). rewrite (S2 ltac:(lia) a b Ha Hb).
        erewrite (S_ext dim (fun c' => n3 X c' a b l * _ * _ * _ * _)); [|intros c' Hc; destruct (S3 Ho c' a b Hc Ha Hb) as [_ Q]; rewrite Q; instantiate (1 := fun c' => n3 X c' b a l * e1 E j a * e1 E k b * e1 E i c' * e1 E l c); cbv beta; ring]. ring.
  Qed.
End InvSym.

Section ShSym.
  Variables (dim order nen : Z) (X : nders) (oldE : inv_map) (N old : nders).
  Hypothesis HX : symmetric dim order dim X.
  Hypothesis HN : symmetric dim order nen N.
  Let E := inverse_map dim order X oldE.
  Lemma shape_sym : symmetric dim order nen (shape_functions dim order E N old).
  Proof.
    intros n Hn. destruct (HN n Hn) as [S2 S3]. split.
    - intros Ho i j Hi Hj. rewrite !shf2 by auto. rewrite <- !S_plus. f_equal.
      + rewrite S_comm. apply S_ext. intros a Ha. apply S_ext. intros b Hb. rewrite (S2 Ho a b Ha Hb). ring.
      + apply S_ext. intros a Ha. unfold E. rewrite (e2_sym dim order X oldE HX i j) by (auto; lia). auto.
    - intros Ho i j k Hi Hj Hk. rewrite !shf3 by auto. rewrite <- !S_plus.
      assert (Q : forall a, e3 E i j k a = e3 E j i k a /\ e3 E i j k a = e3 E i k j a) by (intros a; apply e3_sym; auto).
      assert (Q2 : forall i j c, (1 <= i <= dim)%Z -> (1 <= j <= dim)%Z -> e2 E i j c = e2 E j i c) by (intros; apply e2_sym; auto; lia).
      split; f_equal; try (apply S_ext; intros a Ha; f_equal; apply Q).
      + apply S_ext. intros a Ha. rewrite <- !S_plus. f_equal.
        * rewrite S_comm. apply S_ext. intros b Hb. apply S_ext. intros c Hc. destruct (S3 Ho b c a Hb Hc Ha) as [P _]. rewrite P. ring.
        * apply S_ext. intros b Hb. rewrite (Q2 i j) by auto. ring.
      + apply (S2_half dim
          (fun a b => S_ dim (fun c => n3 N c b a n * e1 E k a * e1 E j b * e1 E i c) + n2 N b a n * (e1 E k a * e2 E i j b + e1 E j b * e2 E i k a))
          (fun a b => n2 N b a n * (e1 E i b * e2 E j k a))).
        * intros a b Ha Hb. ring.
        * intros a b Ha Hb. rewrite (Q2 k j) by auto. rewrite (S2 ltac:(lia) a b Ha Hb).
          erewrite (S_ext dim (fun c => n3 N c a b n * _ * _ * _)); [|intros c Hc; destruct (S3 Ho c a b Hc Ha Hb) as [_ P]; rewrite P; instantiate (1 := fun c => n3 N c b a n * e1 E j a * e1 E k b * e1 E i c); cbv beta; ring]. ring.
  Qed.
End ShSym.

(** ** Shape functions along the domain *)
Section Shape.
  Variables (dim order nen : Z) (V : pt -> Prop) (X N : pt -> nders) (xi : pt -> pt) (old : pt -> inv_map) (oldS : pt -> nders).
  Hypothesis Hd : (1 <= dim <= 3)%Z.
  Hypothesis Vopen : forall y, V y -> around dim y V.
  Hypothesis HJ : forall y, V y -> jet dim (Z.min order 3) dim X (xi y).
  Hypothesis HN : forall y, V y -> jet dim (Z.min order 3) nen N (xi y).
  Hypothesis Hinv : forall y, V y -> forall k, (1 <= k <= dim)%Z -> n0 (X (xi y)) k = y k.
  Hypothesis Hcont : forall y, V y -> forall c, (1 <= c <= dim)%Z -> cont_at dim (fun z => xi z c) y.
  Hypothesis Hdet : forall y, V y -> determinant dim (n1 (X (xi y))) <> 0.
  Let E y := inverse_map dim order (X (xi y)) (old y).
  Let F y := shape_functions dim order (E y) (N (xi y)) (oldS y).
  Let d i := (1 <= i <= dim)%Z.

  Lemma shape_jet y : V y -> jet dim (Z.min order 3) nen F y.
  Proof.
    intros Hy n Hn. destruct (HN y Hy n Hn) as (J1 & J2 & J3 & _).
    assert (C : forall f g, (1 <= order)%Z -> diff_at dim f (xi y) g -> diff_at dim (fun z => f (xi z)) y (fun i => S_ dim (fun a => g a * e1 (E y) i a))).
    { intros f g Ho Hf. apply (dcomp dim order V X xi old); auto. }
    assert (DE1 : forall i c, (2 <= order)%Z -> d i -> d c -> diff_at dim (fun z => e1 (E z) i c) y (fun j => e2 (E y) j i c)) by (intros; apply (de1 dim order V X xi old); auto).
    assert (DE2 : forall i j c, (3 <= order)%Z -> d i -> d j -> d c -> diff_at dim (fun z => e2 (E z) j i c) y (fun k => e3 (E y) k j i c)) by (intros; apply (de2 dim order V X xi old); auto).
    assert (A1 : (2 <= order)%Z -> forall a, d a -> diff_at dim (fun z => n1 (N (xi z)) a n) y (fun j => S_ dim (fun b => n2 (N (xi y)) b a n * e1 (E y) j b))).
    { intros Ho a Ha. apply (C (fun x => n1 (N x) a n)); [lia|]. apply J2; auto; lia. }
    assert (A2 : (3 <= order)%Z -> forall a b, d a -> d b -> diff_at dim (fun z => n2 (N (xi z)) b a n) y (fun k => S_ dim (fun c => n3 (N (xi y)) c b a n * e1 (E y) k c))).
    { intros Ho a b Ha Hb. apply (C (fun x => n2 (N x) b a n)); [lia|]. apply J3; auto; lia. }
    split; [|split; [|split]].
    - intros Ho. eapply diff_grad; [intros i Hi; symmetry; unfold F; apply shf1; lia|]. apply (C (fun x => n0 (N x) n)); [lia|]. apply J1. lia.
    - intros Ho i Hi. eapply diff_ext; [intros z; symmetry; unfold F; apply shf1; lia|]. 
      eapply diff_grad; [|apply (diff_S dim dim); intros a Ha; apply diff_mult; [apply (A1 ltac:(lia) a Ha)|apply (DE1 i a); auto; lia]].
      intros j Hj. cbv beta. unfold F. rewrite shf2 by lia. apply S_ext. intros a Ha. f_equal. rewrite S_mult_r. apply S_ext. intros b Hb. ring.
    - intros Ho i j Hi Hj. eapply diff_ext; [intros z; symmetry; unfold F; apply shf2; lia|]. cbv beta.
      eapply diff_grad; [|apply (diff_S dim dim (fun a z => S_ dim (fun b => n2 (N (xi z)) b a n * e1 (E z) i a * e1 (E z) j b) + n1 (N (xi z)) a n * e2 (E z) j i a)); intros a Ha; apply diff_plus;
        [apply (diff_S dim dim); intros b Hb; apply diff_mult; [apply diff_mult; [apply (A2 ltac:(lia) a b Ha Hb)|apply (DE1 i a); auto; lia]|apply (DE1 j b); auto; lia]
        |apply diff_mult; [apply (A1 ltac:(lia) a Ha)|apply (DE2 i j a); auto; lia]]].
      intros k Hk. cbv beta. unfold F. rewrite shf3 by lia. apply S_ext. intros a Ha. rewrite <- Rplus_assoc. f_equal.
      rewrite S_mult_r, S_plus. apply S_ext. intros b Hb. rewrite !S_mult_r.
      transitivity (S_ dim (fun c => n3 (N (xi y)) c b a n * e1 (E y) k c) * (e1 (E y) i a * e1 (E y) j b) + n2 (N (xi y)) b a n * (e1 (E y) i a * e2 (E y) k j b + e1 (E y) j b * e2 (E y) k i a + e1 (E y) k b * e2 (E y) j i a)).
      + rewrite <- S_mult_r. ring.
      + f_equal. rewrite S_mult_r. apply S_ext. intros c Hc. ring.
    - intros Ho. lia.
  Qed.
End Shape.

(** ** Isoparametric identities: a combination of functions equal to the coordinate k has the derivatives of that
    coordinate. *)
Section Iso.
  Variables (dim order nen k : Z) (V : pt -> Prop) (F : pt -> nders) (c : Z -> R).
  Hypothesis Hk : (1 <= k <= dim)%Z.
  Hypothesis Vopen : forall y, V y -> around dim y V.
  Hypothesis HF : forall y, V y -> jet dim order nen F y.
  Hypothesis H0 : forall y, V y -> S_ nen (fun a => c a * n0 (F y) a) = y k.
  Let d i := (1 <= i <= dim)%Z.
  Lemma iso1 y i : (1 <= order)%Z -> V y -> d i -> S_ nen (fun a => c a * n1 (F y) i a) = kd i k.
  Proof.
    intros Ho Hy Hi.
    assert (D1 : diff_at dim (fun z => S_ nen (fun a => c a * n0 (F z) a)) y (fun i => S_ nen (fun a => c a * n1 (F y) i a))).
    { apply (diff_S dim nen). intros a Ha. apply diff_scal. apply (HF y Hy a Ha); auto. }
    assert (D2 : diff_at dim (fun z => S_ nen (fun a => c a * n0 (F z) a)) y (fun i => kd i k)).
    { eapply diff_ext_loc; [|apply diff_coord; exact Hk]. eapply around_imp; [|apply Vopen; exact Hy]. intros z Hz. symmetry. apply H0. auto. }
    exact (diff_unique dim _ y _ _ i D1 D2 Hi).
  Qed.
  Lemma iso2 y i j : (2 <= order)%Z -> V y -> d i -> d j -> S_ nen (fun a => c a * n2 (F y) j i a) = 0.
  Proof.
    intros Ho Hy Hi Hj.
    assert (D1 : diff_at dim (fun z => S_ nen (fun a => c a * n1 (F z) i a)) y (fun j => S_ nen (fun a => c a * n2 (F y) j i a))).
    { apply (diff_S dim nen). intros a Ha. apply diff_scal. apply (HF y Hy a Ha); auto. }
    assert (D2 : diff_at dim (fun z => S_ nen (fun a => c a * n1 (F z) i a)) y (fun _ => 0)).
    { eapply diff_ext_loc; [|apply (diff_const dim (kd i k))]. eapply around_imp; [|apply Vopen; exact Hy]. intros z Hz. symmetry. apply iso1; auto. lia. }
    exact (diff_unique dim _ y _ _ j D1 D2 Hj).
  Qed.
  Lemma iso3 y i j l : (3 <= order)%Z -> V y -> d i -> d j -> d l -> S_ nen (fun a => c a * n3 (F y) l j i a) = 0.
  Proof.
    intros Ho Hy Hi Hj Hl.
    assert (D1 : diff_at dim (fun z => S_ nen (fun a => c a * n2 (F z) j i a)) y (fun l => S_ nen (fun a => c a * n3 (F y) l j i a))).
    { apply (diff_S dim nen). intros a Ha. apply diff_scal. apply (HF y Hy a Ha); auto. }
    assert (D2 : diff_at dim (fun z => S_ nen (fun a => c a * n2 (F z) j i a)) y (fun _ => 0)).
    { eapply diff_ext_loc; [|apply (diff_const dim 0)]. eapply around_imp; [|apply Vopen; exact Hy]. intros z Hz. symmetry. apply iso2; auto. lia. }
    exact (diff_unique dim _ y _ _ l D1 D2 Hl).
  Qed.
End Iso.

(** ** Normals *)
Lemma dot2 u v : dot 2 u v = u 1%Z * v 1%Z + u 2%Z * v 2%Z.
Proof. cbv -[Rplus Rminus Rmult Rdiv Rinv Ropp IZR R]. ring. Qed.
Lemma dot3 u v : dot 3 u v = u 1%Z * v 1%Z + u 2%Z * v 2%Z + u 3%Z * v 3%Z.
Proof. cbv -[Rplus Rminus Rmult Rdiv Rinv Ropp IZR R]. ring. Qed.
Lemma sq2_pos a b c d : a * c + b * d <> 0 -> 0 < a * a + b * b.
Proof. intros H. destruct (Req_dec a 0) as [->|A]; [destruct (Req_dec b 0) as [->|B]; [exfalso; apply H; ring|nra]|nra]. Qed.
Lemma sq3_pos a b e c d f : a * c + b * d + e * f <> 0 -> 0 < a * a + b * b + e * e.
Proof. intros H. destruct (Req_dec a 0) as [->|A]; [destruct (Req_dec b 0) as [->|B]; [destruct (Req_dec e 0) as [->|B]; [exfalso; apply H; ring|nra]|nra]|nra]. Qed.

(** The unnormalised normal on the upper side. *)
Definition raw_normal (dim axis : Z) (F : Z -> Z -> R) (j : Z) : R :=
  if (dim =? 3)%Z then
    let s := F (if (axis =? 0)%Z then 2 else if (axis =? 1)%Z then 3 else 1)%Z in
    let t := F (if (axis =? 0)%Z then 3 else if (axis =? 1)%Z then 1 else 2)%Z in
    match j with 1%Z => s 2%Z * t 3%Z - s 3%Z * t 2%Z | 2%Z => s 3%Z * t 1%Z - s 1%Z * t 3%Z | _ => s 1%Z * t 2%Z - s 2%Z * t 1%Z end
  else if (dim =? 2)%Z then
    if (axis =? 0)%Z then match j with 1%Z => F 2%Z 2%Z | _ => - F 2%Z 1%Z end
    else match j with 1%Z => - F 1%Z 2%Z | _ => F 1%Z 1%Z end
  else 1.
Lemma raw_axis dim axis F : (1 <= dim <= 3)%Z -> (0 <= axis < dim)%Z -> dot dim (raw_normal dim axis F) (F (axis+1)%Z) = determinant dim F.
Proof.
  intros H Ha. assert (C : (dim = 1 \/ dim = 2 \/ dim = 3)%Z) by lia.
  destruct C as [-> | [-> | ->]].
  - assert (axis = 0)%Z by lia. subst axis. cbv -[Rplus Rminus Rmult Rdiv Rinv Ropp IZR R]. ring.
  - assert (C : (axis = 0 \/ axis = 1)%Z) by lia. destruct C as [-> | ->]; cbv -[Rplus Rminus Rmult Rdiv Rinv Ropp IZR R]; ring.
  - assert (C : (axis = 0 \/ axis = 1 \/ axis = 2)%Z) by lia. destruct C as [-> | [-> | ->]]; cbv -[Rplus Rminus Rmult Rdiv Rinv Ropp IZR R]; ring.
Qed.
Lemma raw_tangent dim axis F t : (1 <= dim <= 3)%Z -> (0 <= axis < dim)%Z -> (1 <= t <= dim)%Z -> (t <> axis + 1)%Z -> dot dim (raw_normal dim axis F) (F t) = 0.
Proof.
  intros H Ha Ht Hn. assert (C : (dim = 1 \/ dim = 2 \/ dim = 3)%Z) by lia.
  destruct C as [-> | [-> | ->]].
  - lia.
  - assert (C : (axis = 0 /\ t = 2 \/ axis = 1 /\ t = 1)%Z) by lia. destruct C as [[-> ->] | [-> ->]]; cbv -[Rplus Rminus Rmult Rdiv Rinv Ropp IZR R]; ring.
  - assert (C : (axis = 0 \/ axis = 1 \/ axis = 2)%Z) by lia. destruct C as [-> | [-> | ->]]; cases123 t; try lia; cbv -[Rplus Rminus Rmult Rdiv Rinv Ropp IZR R]; ring.
Qed.
Lemma raw_pos dim axis F : (1 <= dim <= 3)%Z -> (0 <= axis < dim)%Z -> determinant dim F <> 0 -> 0 < dot dim (raw_normal dim axis F) (raw_normal dim axis F).
Proof.
  intros H Ha D. rewrite <- (raw_axis dim axis F H Ha) in D. assert (C : (dim = 1 \/ dim = 2 \/ dim = 3)%Z) by lia.
  destruct C as [-> | [-> | ->]].
  - cbv -[Rplus Rminus Rmult Rdiv Rinv Ropp IZR R Rlt]. lra.
  - rewrite dot2 in D |- *. eapply sq2_pos; eauto.
  - rewrite dot3 in D |- *. eapply sq3_pos; eauto.
Qed.
Lemma get_normal_raw dim axis side F : (1 <= dim <= 3)%Z -> (0 <= axis < dim)%Z ->
  let dS := sqrt (dot dim (raw_normal dim axis F) (raw_normal dim axis F)) in
  fst (get_normal sqrt dim axis side F) = dS /\
  forall j, (1 <= j <= dim)%Z -> snd (get_normal sqrt dim axis side F) j = (if (side =? 0)%Z then -1 else 1) * (raw_normal dim axis F j / dS).
Proof.
  intros H Ha. assert (C : (dim = 1 \/ dim = 2 \/ dim = 3)%Z) by lia.
  destruct C as [-> | [-> | ->]]; intros dS.
  - assert (E : dS = 1). { unfold dS. replace (dot 1 _ _) with 1; [apply sqrt_1|]. cbv -[Rplus Rminus Rmult Rdiv Rinv Ropp IZR R]. ring. }
    unfold get_normal. change (1 =? 3)%Z with false. change (1 =? 2)%Z with false. cbv iota. split; [cbn; auto|].
    intros j Hj. rewrite E. cbn [snd]. unfold raw_normal. change (1 =? 3)%Z with false. change (1 =? 2)%Z with false. cbv iota. destruct (side =? 0)%Z; field.
  - assert (C : (axis = 0 \/ axis = 1)%Z) by lia.
    assert (E : fst (get_normal sqrt 2 axis side F) = dS).
    { unfold get_normal. cbn [Z.eqb Pos.eqb fst]. unfold dS. destruct C as [-> | ->]; cbv -[Rplus Rminus Rmult Rdiv Rinv Ropp IZR R sqrt]; f_equal; ring. }
    split; auto. intros j Hj. rewrite <- E. unfold get_normal. cbn [Z.eqb Pos.eqb fst snd].
    cases12 j; destruct C as [-> | ->]; destruct (side =? 0)%Z; cbv -[Rplus Rminus Rmult Rdiv Rinv Ropp IZR R sqrt]; unfold Rdiv; ring.
  - assert (C : (axis = 0 \/ axis = 1 \/ axis = 2)%Z) by lia.
    assert (E : fst (get_normal sqrt 3 axis side F) = dS).
    { unfold get_normal. cbn [Z.eqb Pos.eqb fst]. unfold dS. destruct C as [-> | [-> | ->]]; cbv -[Rplus Rminus Rmult Rdiv Rinv Ropp IZR R sqrt]; f_equal; ring. }
    split; auto. intros j Hj. rewrite <- E. unfold get_normal. cbn [Z.eqb Pos.eqb fst snd].
    cases123 j; destruct C as [-> | [-> | ->]]; destruct (side =? 0)%Z; cbv -[Rplus Rminus Rmult Rdiv Rinv Ropp IZR R sqrt]; unfold Rdiv; ring.
Qed.

(** ** Left inverse of the Jacobian of an embedded element *)
Lemma get_inv_grad_left nen nsd dim N C a b : (1 <= dim <= 3)%Z ->
  let F := fun a i => S_ nen (fun n => N a n * C i n) in
  determinant dim (fun a b => S_ nsd (fun i => F a i * F b i)) <> 0 -> (1 <= a <= dim)%Z -> (1 <= b <= dim)%Z ->
  S_ nsd (fun i => get_inv_grad nen nsd dim N C i a * F b i) = kd a b.
Proof.
  intros Hd F D Ha Hb. unfold get_inv_grad.
  set (F' := fun i a => fsum nen (fun n => C i n * N a n)).
  assert (EF : forall i a, F' i a = F a i) by (intros; unfold F', F; rewrite fsum_S; apply S_ext; intros; ring).
  set (M := fun a b => fsum nsd (fun i => F' i a * F' i b)).
  assert (EM : forall a b, M a b = S_ nsd (fun i => F a i * F b i)) by (intros; unfold M; rewrite fsum_S; apply S_ext; intros; rewrite !EF; auto).
  assert (D' : determinant dim M <> 0).
  { replace (determinant dim M) with (determinant dim (fun a b => S_ nsd (fun i => F a i * F b i))); auto. unfold determinant. rewrite !EM. auto. }
  rewrite <- (inverse_l dim M a b Hd D' Ha Hb).
  transitivity (S_ nsd (fun i => S_ dim (fun c => inverse dim (determinant dim M) M a c * (F c i * F b i)))).
  - apply S_ext. intros i Hi. change (fsum dim (fun c => inverse dim (determinant dim M) M a c * F' i c) * F b i = S_ dim (fun c => inverse dim (determinant dim M) M a c * (F c i * F b i))). rewrite fsum_S, S_mult_r. apply S_ext. intros c Hc. rewrite EF. ring.
  - rewrite S_comm. apply S_ext. intros c Hc. rewrite EM. rewrite S_mult_l. auto.
Qed.
