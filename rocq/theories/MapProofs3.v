(** The inverse of the geometry map and the shape functions. *)
From Coq Require Import ZArith List Bool Lia Reals Lra Psatz.
From Coq Require Import ZifyBool ZifyNat.
From Coquelicot Require Import Coquelicot.
From Verif Require Import Prelude GridSpec GridProofs MapModel MapSpec MapProofs MapProofs2.
Import ListNotations.
Open Scope R_scope.

(** ** Determinant and inverse *)
Lemma determinant_det dim A : (1 <= dim <= 3)%Z -> determinant dim A = det dim A.
Proof.
  intros H. assert (C : (dim = 1 \/ dim = 2 \/ dim = 3)%Z) by lia.
  destruct C as [-> | [-> | ->]]; unfold determinant, det; cbv -[Rplus Rminus Rmult Rdiv Rinv Ropp IZR R]; ring.
Qed.
Ltac cases123 i := let C := fresh in assert (C : (i = 1 \/ i = 2 \/ i = 3)%Z) by lia; destruct C as [-> | [-> | ->]].
Ltac cases12 i := let C := fresh in assert (C : (i = 1 \/ i = 2)%Z) by lia; destruct C as [-> | ->].
Lemma inverse_r dim A i j : (1 <= dim <= 3)%Z -> determinant dim A <> 0 -> (1 <= i <= dim)%Z -> (1 <= j <= dim)%Z ->
  S_ dim (fun k => A i k * inverse dim (determinant dim A) A k j) = kd i j.
Proof.
  intros H D Hi Hj. assert (C : (dim = 1 \/ dim = 2 \/ dim = 3)%Z) by lia.
  destruct C as [-> | [-> | ->]].
  - assert (i = 1%Z) by lia. assert (j = 1%Z) by lia. subst i j. cbv -[Rplus Rminus Rmult Rdiv Rinv Ropp IZR R] in D |- *. field. exact D.
  - cases12 i; cases12 j; cbv -[Rplus Rminus Rmult Rdiv Rinv Ropp IZR R] in D |- *; field; exact D.
  - cases123 i; cases123 j; cbv -[Rplus Rminus Rmult Rdiv Rinv Ropp IZR R] in D |- *; field; exact D.
Qed.
Lemma inverse_l dim A i j : (1 <= dim <= 3)%Z -> determinant dim A <> 0 -> (1 <= i <= dim)%Z -> (1 <= j <= dim)%Z ->
  S_ dim (fun k => inverse dim (determinant dim A) A i k * A k j) = kd i j.
Proof.
  intros H D Hi Hj. assert (C : (dim = 1 \/ dim = 2 \/ dim = 3)%Z) by lia.
  destruct C as [-> | [-> | ->]].
  - assert (i = 1%Z) by lia. assert (j = 1%Z) by lia. subst i j. cbv -[Rplus Rminus Rmult Rdiv Rinv Ropp IZR R] in D |- *. field. exact D.
  - cases12 i; cases12 j; cbv -[Rplus Rminus Rmult Rdiv Rinv Ropp IZR R] in D |- *; field; exact D.
  - cases123 i; cases123 j; cbv -[Rplus Rminus Rmult Rdiv Rinv Ropp IZR R] in D |- *; field; exact D.
Qed.

(** Differentiability of the entries of the inverse. *)
Definition diffble (n : Z) (f : pt -> R) (x : pt) : Prop := exists g, diff_at n f x g.
Lemma db_plus n f g x : diffble n f x -> diffble n g x -> diffble n (fun y => f y + g y) x.
Proof. intros [a A] [b B]. eexists. apply diff_plus; eauto. Qed.
Lemma db_minus n f g x : diffble n f x -> diffble n g x -> diffble n (fun y => f y - g y) x.
Proof. intros [a A] [b B]. eexists. apply diff_minus; eauto. Qed.
Lemma db_mult n f g x : diffble n f x -> diffble n g x -> diffble n (fun y => f y * g y) x.
Proof. intros [a A] [b B]. eexists. apply diff_mult; eauto. Qed.
Lemma db_opp n f x : diffble n f x -> diffble n (fun y => - f y) x.
Proof. intros [a A]. eexists. apply diff_opp; eauto. Qed.
Lemma db_div n f g x : g x <> 0 -> diffble n f x -> diffble n g x -> diffble n (fun y => f y / g y) x.
Proof. intros H [a A] [b B]. eexists. apply diff_div; eauto. Qed.
Lemma db_const n c x : diffble n (fun _ => c) x.
Proof. eexists. apply diff_const. Qed.
Ltac db := repeat first [assumption | apply db_div | apply db_minus | apply db_plus | apply db_opp | apply db_mult | apply db_const].
Lemma inverse_diffble n dim (A : pt -> Z -> Z -> R) x i j : (1 <= dim <= 3)%Z ->
  (forall a k, (1 <= a <= dim)%Z -> (1 <= k <= dim)%Z -> diffble n (fun y => A y a k) x) -> determinant dim (A x) <> 0 ->
  (1 <= i <= dim)%Z -> (1 <= j <= dim)%Z ->
  diffble n (fun y => inverse dim (determinant dim (A y)) (A y) i j) x.
Proof.
  intros H HA D Hi Hj. assert (C : (dim = 1 \/ dim = 2 \/ dim = 3)%Z) by lia.
  destruct C as [-> | [-> | ->]].
  - pose proof (HA 1 1 ltac:(lia) ltac:(lia))%Z. cbv beta iota zeta delta [inverse determinant Z.eqb Pos.eqb] in D |- *. db.
  - pose proof (HA 1 1 ltac:(lia) ltac:(lia))%Z. pose proof (HA 1 2 ltac:(lia) ltac:(lia))%Z. pose proof (HA 2 1 ltac:(lia) ltac:(lia))%Z. pose proof (HA 2 2 ltac:(lia) ltac:(lia))%Z.
    cases12 i; cases12 j; cbv beta iota zeta delta [inverse determinant Z.eqb Pos.eqb] in D |- *; db.
  - pose proof (HA 1 1 ltac:(lia) ltac:(lia))%Z. pose proof (HA 1 2 ltac:(lia) ltac:(lia))%Z. pose proof (HA 1 3 ltac:(lia) ltac:(lia))%Z.
    pose proof (HA 2 1 ltac:(lia) ltac:(lia))%Z. pose proof (HA 2 2 ltac:(lia) ltac:(lia))%Z. pose proof (HA 2 3 ltac:(lia) ltac:(lia))%Z.
    pose proof (HA 3 1 ltac:(lia) ltac:(lia))%Z. pose proof (HA 3 2 ltac:(lia) ltac:(lia))%Z. pose proof (HA 3 3 ltac:(lia) ltac:(lia))%Z.
    cases123 i; cases123 j; cbv beta iota zeta delta [inverse determinant Z.eqb Pos.eqb] in D |- *; db.
Qed.

(** ** Sums *)
Lemma S_mult_l n c f : c * S_ n f = S_ n (fun i => c * f i).
Proof. apply rsum_mult_l. Qed.
Lemma S_mult_r n c f : S_ n f * c = S_ n (fun i => f i * c).
Proof. apply rsum_mult_r. Qed.
Lemma S_plus n f g : S_ n f + S_ n g = S_ n (fun i => f i + g i).
Proof. symmetry. apply rsum_plus. Qed.
Lemma S_opp n f : - S_ n f = S_ n (fun i => - f i).
Proof. replace (- S_ n f) with (-1 * S_ n f) by ring. rewrite S_mult_l. apply S_ext. intros. ring. Qed.
Lemma S_minus n f g : S_ n f - S_ n g = S_ n (fun i => f i - g i).
Proof. unfold Rminus. rewrite S_opp, S_plus. auto. Qed.
Lemma S_comm n m (f : Z -> Z -> R) : S_ n (fun i => S_ m (fun j => f i j)) = S_ m (fun j => S_ n (fun i => f i j)).
Proof. apply rsum_comm. Qed.
Lemma S_kd_r n k (f : Z -> R) : (1 <= k <= n)%Z -> S_ n (fun i => f i * kd i k) = f k.
Proof. intros H. rewrite <- (rsum_kd_l n k f H). apply S_ext. intros. ring. Qed.
Lemma S_zero n : S_ n (fun _ => 0) = 0.
Proof. apply rsum_zero. auto. Qed.

(** ** The formulas of InverseMap as sums *)
Section Formulas.
  Variables (dim order : Z) (X : nders) (old : inv_map).
  Let E := inverse_map dim order X old.
  Let E1 := inverse dim (determinant dim (n1 X)) (n1 X).
  Lemma inv1 : (1 <= order)%Z -> e1 E = E1.
  Proof. intros Ho. unfold E, inverse_map. cbn [e1]. replace (order <? 1)%Z with false by lia. auto. Qed.
  Lemma inv0 : (1 <= order)%Z -> e_det E = determinant dim (n1 X).
  Proof. intros Ho. unfold E, inverse_map. cbn [e_det]. replace (order <? 1)%Z with false by lia. auto. Qed.
  Let T j i k := S_ dim (fun a => S_ dim (fun b => n2 X b a k * E1 i a * E1 j b)).
  Let E2loop j i c := loop dim (fun k => loop dim (fun a => loop dim (fun b s => s - n2 X b a k * E1 i a * E1 j b * E1 k c))) 0.
  Lemma E2loop_S j i c : E2loop j i c = - S_ dim (fun k => T j i k * E1 k c).
  Proof.
    unfold E2loop. rewrite (loop_sum dim _ (fun k => - (T j i k * E1 k c))).
    { rewrite S_opp. ring. }
    intros k Hk s. rewrite (loop_sum dim _ (fun a => S_ dim (fun b => - (n2 X b a k * E1 i a * E1 j b * E1 k c)))).
    { f_equal. unfold T. rewrite S_mult_r, S_opp. apply S_ext. intros a Ha. rewrite S_mult_r, S_opp. auto. }
    intros a Ha s'. rewrite (loop_sum dim _ (fun b => - (n2 X b a k * E1 i a * E1 j b * E1 k c))) by (intros; ring). auto.
  Qed.
  Lemma inv2 j i c : (2 <= order)%Z -> e2 E j i c = - S_ dim (fun k => T j i k * e1 E k c).
  Proof. intros Ho. rewrite inv1 by lia. rewrite <- E2loop_S. unfold E, inverse_map. cbn [e2]. replace (order <? 2)%Z with false by lia. reflexivity. Qed.
  Lemma inv3 k j i d : (3 <= order)%Z -> e3 E k j i d =
    - S_ dim (fun a => S_ dim (fun b => S_ dim (fun l =>
        S_ dim (fun c => n3 X c b a l * e1 E i a * e1 E j b * e1 E k c * e1 E l d)
        + n2 X b a l * (e1 E i a * e2 E k j b + e1 E j b * e2 E k i a + e1 E k b * e2 E j i a) * e1 E l d))).
  Proof.
    intros Ho. assert (F2 : e2 E = E2loop) by (unfold E, inverse_map; cbn [e2]; replace (order <? 2)%Z with false by lia; reflexivity).
    rewrite F2, inv1 by lia. unfold E, inverse_map. cbn [e3]. replace (order <? 3)%Z with false by lia. cbv zeta. fold E1.
    set (g := fun a b l => S_ dim (fun c => n3 X c b a l * E1 i a * E1 j b * E1 k c * E1 l d)
        + n2 X b a l * (E1 i a * E2loop k j b + E1 j b * E2loop k i a + E1 k b * E2loop j i a) * E1 l d).
    rewrite (loop_sum dim _ (fun a => - S_ dim (fun b => S_ dim (fun l => g a b l)))).
    { rewrite Rplus_0_l, S_opp. auto. }
    intros a Ha s. rewrite (loop_sum dim _ (fun b => - S_ dim (fun l => g a b l))).
    { rewrite S_opp. auto. }
    intros b Hb s'. rewrite (loop_sum dim _ (fun l => - g a b l)).
    { rewrite S_opp. auto. }
    intros l Hl s2. rewrite (loop_sum dim _ (fun c => - (n3 X c b a l * E1 i a * E1 j b * E1 k c * E1 l d))) by (intros; ring).
    rewrite <- (S_opp dim (fun c => n3 X c b a l * E1 i a * E1 j b * E1 k c * E1 l d)). unfold g, E2loop. ring.
  Qed.
End Formulas.

(** ** The inverse map along its domain *)
Section Inverse.
  Variables (dim order : Z) (V : pt -> Prop) (X : pt -> nders) (xi : pt -> pt) (old : pt -> inv_map).
  Hypothesis Hd : (1 <= dim <= 3)%Z.
  Hypothesis Vopen : forall y, V y -> around dim y V.
  Hypothesis HJ : forall y, V y -> jet dim (Z.min order 3) dim X (xi y).
  Hypothesis Hinv : forall y, V y -> forall k, (1 <= k <= dim)%Z -> n0 (X (xi y)) k = y k.
  Hypothesis Hcont : forall y, V y -> forall c, (1 <= c <= dim)%Z -> cont_at dim (fun z => xi z c) y.
  Hypothesis Hdet : forall y, V y -> determinant dim (n1 (X (xi y))) <> 0.
  Let E y := inverse_map dim order (X (xi y)) (old y).
  Let d i := (1 <= i <= dim)%Z.

  Lemma dxi y c : (1 <= order)%Z -> V y -> d c -> diff_at dim (fun z => xi z c) y (fun i => e1 (E y) i c).
  Proof.
    intros Ho Hy Hc. apply (diff_inverse dim (fun k z => n0 (X z) k) xi y (fun a k => n1 (X (xi y)) a k)); auto.
    - intros k Hk. apply (HJ y Hy k Hk). lia.
    - eapply around_imp; [|apply Vopen; exact Hy]. intros z Hz k Hk. apply Hinv; auto.
    - intros a c' Ha Hc'. unfold E. rewrite inv1 by auto. apply inverse_r; auto.
  Qed.
  (** Composition with the inverse map. *)
  Lemma dcomp f g y : (1 <= order)%Z -> V y -> diff_at dim f (xi y) g -> diff_at dim (fun z => f (xi z)) y (fun i => S_ dim (fun a => g a * e1 (E y) i a)).
  Proof. intros Ho Hy Hf. apply (diff_comp dim dim f xi y g (fun a i => e1 (E y) i a)); auto. intros k Hk. apply dxi; auto. Qed.

  Lemma de1 y i c : (2 <= order)%Z -> V y -> d i -> d c -> diff_at dim (fun z => e1 (E z) i c) y (fun j => e2 (E y) j i c).
  Proof.
    intros Ho Hy Hi Hc.
    assert (DA : forall a k, d a -> d k -> diff_at dim (fun z => n1 (X (xi z)) a k) y (fun j => S_ dim (fun b => n2 (X (xi y)) b a k * e1 (E y) j b))).
    { intros a k Ha Hk. apply (dcomp (fun x => n1 (X x) a k)); auto; [lia|]. apply (HJ y Hy k Hk); auto; lia. }
    assert (DE : forall a, d a -> diffble dim (fun z => e1 (E z) i a) y).
    { intros a Ha. destruct (inverse_diffble dim dim (fun z => n1 (X (xi z))) y i a Hd) as [g Hg]; auto.
      - intros a' k Ha' Hk. eexists. apply DA; auto.
      - exists g. eapply diff_ext; [|exact Hg]. intros z. unfold E. rewrite inv1 by lia. auto. }
    assert (GG : exists G, forall a, d a -> diff_at dim (fun z => e1 (E z) i a) y (fun j => G j a)).
    { assert (C : (dim = 1 \/ dim = 2 \/ dim = 3)%Z) by lia. unfold d in DE.
      destruct (DE 1%Z ltac:(lia)) as [g1 D1]. destruct C as [C | C].
      - exists (fun j _ => g1 j). intros a Ha. unfold d in Ha. replace a with 1%Z by lia. exact D1.
      - destruct (DE 2%Z ltac:(lia)) as [g2 D2]. destruct C as [C | C].
        + exists (fun j a => if (a =? 1)%Z then g1 j else g2 j). intros a Ha. unfold d in Ha. cases12 a; [exact D1|exact D2].
        + destruct (DE 3%Z ltac:(lia)) as [g3 D3].
          exists (fun j a => if (a =? 1)%Z then g1 j else if (a =? 2)%Z then g2 j else g3 j). intros a Ha. unfold d in Ha. cases123 a; [exact D1|exact D2|exact D3]. }
    destruct GG as [G HG].
    (* differentiate E1 X1 = 1 *)
    assert (K : forall j k, d j -> d k -> S_ dim (fun a => G j a * n1 (X (xi y)) a k + e1 (E y) i a * S_ dim (fun b => n2 (X (xi y)) b a k * e1 (E y) j b)) = 0).
    { intros j k Hj Hk.
      pose proof (diff_S dim dim (fun a z => e1 (E z) i a * n1 (X (xi z)) a k) y _ (fun a Ha => diff_mult dim _ _ y _ _ (HG a Ha) (DA a k Ha Hk))) as D1. cbv beta in D1.
      pose proof (diff_const dim (kd i k) y) as D2.
      pose proof (diff_ext_loc dim _ _ y _ (around_imp dim y V (fun z => kd i k = S_ dim (fun a => e1 (E z) i a * n1 (X (xi z)) a k)) ltac:(intros z Hz; unfold E; rewrite inv1 by lia; symmetry; apply inverse_l; auto) (Vopen y Hy)) D2) as D3.
      pose proof (diff_unique dim _ y _ _ j D1 D3 Hj) as U. cbv beta in U. exact U. }
    eapply diff_grad; [|apply HG; auto]. intros j Hj. cbv beta.
    assert (K2 : S_ dim (fun k => S_ dim (fun a => G j a * n1 (X (xi y)) a k + e1 (E y) i a * S_ dim (fun b => n2 (X (xi y)) b a k * e1 (E y) j b)) * e1 (E y) k c) = 0).
    { erewrite S_ext; [apply S_zero|]. intros k Hk. cbv beta. rewrite K by auto. ring. }
    assert (K3 : S_ dim (fun k => S_ dim (fun a => G j a * n1 (X (xi y)) a k) * e1 (E y) k c) = G j c).
    { erewrite S_ext; [|intros k Hk; apply S_mult_r]. rewrite S_comm. rewrite <- (S_kd_r dim c (fun a => G j a) Hc). apply S_ext. intros a Ha.
      rewrite <- (inverse_r dim (n1 (X (xi y))) a c Hd (Hdet y Hy) Ha Hc). rewrite S_mult_l. apply S_ext. intros k Hk. unfold E. rewrite inv1 by lia. ring. }
    unfold E at 1. rewrite inv2 by auto. rewrite <- K3.
    match goal with |- ?a = - ?b => cut (a + b = 0); [lra|] end.
    rewrite S_plus. rewrite <- K2. apply S_ext. intros k Hk. cbv beta. fold (E y). rewrite <- Rmult_plus_distr_r. f_equal.
    rewrite S_plus. apply S_ext. intros a Ha. f_equal. rewrite S_mult_l. apply S_ext. intros b Hb. unfold E. rewrite inv1 by lia. ring.
  Qed.

  Lemma de2 y i j d0 : (3 <= order)%Z -> V y -> d i -> d j -> d d0 -> diff_at dim (fun z => e2 (E z) j i d0) y (fun k => e3 (E y) k j i d0).
  Proof.
    intros Ho Hy Hi Hj Hd0.
    assert (D2 : forall a b l, d a -> d b -> d l -> diff_at dim (fun z => n2 (X (xi z)) b a l) y (fun k => S_ dim (fun c => n3 (X (xi y)) c b a l * e1 (E y) k c))).
    { intros a b l Ha Hb Hl. apply (dcomp (fun x => n2 (X x) b a l)); auto; [lia|]. apply (HJ y Hy l Hl); auto; lia. }
    eapply diff_ext; [intros z; symmetry; unfold E; apply inv2; lia|]. cbv beta.
    eapply diff_grad; [|apply diff_opp; apply (diff_S dim dim (fun l z => S_ dim (fun a => S_ dim (fun b => n2 (X (xi z)) b a l * inverse dim (determinant dim (n1 (X (xi z)))) (n1 (X (xi z))) i a * inverse dim (determinant dim (n1 (X (xi z)))) (n1 (X (xi z))) j b)) * e1 (inverse_map dim order (X (xi z)) (old z)) l d0)); intros l Hl;
      apply diff_mult; [|apply (de1 y l d0); auto; lia]; apply (diff_S dim dim); intros a Ha; apply (diff_S dim dim); intros b Hb;
      apply diff_mult; [apply diff_mult; [apply D2; auto|]|]; (eapply diff_ext; [intros z; rewrite <- (inv1 dim order (X (xi z)) (old z)) by lia; reflexivity|]); [apply (de1 y i a); auto; lia|apply (de1 y j b); auto; lia]].
    intros k Hk. cbv beta. pose proof (inv3 dim order (X (xi y)) (old y) k j i d0 Ho) as F3. fold (E y) in F3. rewrite F3. clear F3. f_equal.
    rewrite <- !(inv1 dim order (X (xi y)) (old y)) by lia. fold (E y).
    (* the last term of the product rule *)
    set (x2 := n2 (X (xi y))). set (x3 := n3 (X (xi y))). set (F1 := e1 (E y)). set (F2 := e2 (E y)).
    assert (LAST : S_ dim (fun l => S_ dim (fun a => S_ dim (fun b => x2 b a l * F1 i a * F1 j b)) * F2 k l d0)
                 = S_ dim (fun a => F2 j i a * S_ dim (fun l => S_ dim (fun b => x2 b a l * F1 k b) * F1 l d0))).
    { assert (A2 : forall j i c, F2 j i c = - S_ dim (fun l => S_ dim (fun a => S_ dim (fun b => x2 b a l * F1 i a * F1 j b)) * F1 l c)).
      { intros j' i' c'. unfold F2, E. rewrite inv2 by lia. rewrite <- !(inv1 dim order (X (xi y)) (old y)) by lia. reflexivity. }
      transitivity (- S_ dim (fun p => S_ dim (fun m => S_ dim (fun q => x2 q p m * F1 k q) * F1 m d0) * S_ dim (fun l => S_ dim (fun a => S_ dim (fun b => x2 b a l * F1 i a * F1 j b)) * F1 l p))).
      - set (T := fun l => S_ dim (fun a => S_ dim (fun b => x2 b a l * F1 i a * F1 j b))).
        erewrite S_ext; [|intros l Hl; rewrite (A2 k l d0), Ropp_mult_distr_r_reverse; reflexivity]. rewrite <- S_opp. f_equal.
        change (S_ dim (fun l => T l * S_ dim (fun m => S_ dim (fun a => S_ dim (fun b => x2 b a m * F1 l a * F1 k b)) * F1 m d0))
          = S_ dim (fun p => S_ dim (fun m => S_ dim (fun q => x2 q p m * F1 k q) * F1 m d0) * S_ dim (fun l => T l * F1 l p))).
        transitivity (S_ dim (fun l => S_ dim (fun p => S_ dim (fun m => S_ dim (fun q => x2 q p m * F1 k q) * F1 m d0) * (T l * F1 l p)))).
        + apply S_ext. intros l Hl. rewrite S_mult_l.
          transitivity (S_ dim (fun m => S_ dim (fun p => S_ dim (fun q => x2 q p m * F1 k q) * F1 m d0 * (T l * F1 l p)))).
          * apply S_ext. intros m Hm. rewrite S_mult_r, S_mult_l. apply S_ext. intros p Hp. rewrite !S_mult_r, S_mult_l. apply S_ext. intros q Hq. ring.
          * rewrite S_comm. apply S_ext. intros p Hp. rewrite S_mult_r. auto.
        + rewrite S_comm. apply S_ext. intros p Hp. rewrite S_mult_l. auto.
      - rewrite S_opp. apply S_ext. intros a Ha. rewrite (A2 j i a). ring. }
    transitivity (S_ dim (fun l => S_ dim (fun a => S_ dim (fun b => (S_ dim (fun c => x3 c b a l * F1 k c) * F1 i a + x2 b a l * F2 k i a) * F1 j b + x2 b a l * F1 i a * F2 k j b)) * F1 l d0)
                  + S_ dim (fun l => S_ dim (fun a => S_ dim (fun b => x2 b a l * F1 i a * F1 j b)) * F2 k l d0)).
    { rewrite S_plus. apply S_ext. intros l Hl. auto. }
    rewrite LAST.
    transitivity (S_ dim (fun a => S_ dim (fun b => S_ dim (fun l => ((S_ dim (fun c => x3 c b a l * F1 k c) * F1 i a + x2 b a l * F2 k i a) * F1 j b + x2 b a l * F1 i a * F2 k j b) * F1 l d0)))
                  + S_ dim (fun a => S_ dim (fun b => S_ dim (fun l => F2 j i a * (x2 b a l * F1 k b) * F1 l d0)))).
    { f_equal.
      - erewrite S_ext; [|intros l Hl; rewrite S_mult_r; erewrite S_ext; [|intros a Ha; rewrite S_mult_r; reflexivity]; reflexivity].
        rewrite S_comm. apply S_ext. intros a Ha. rewrite S_comm. auto.
      - apply S_ext. intros a Ha. rewrite S_mult_l. rewrite (S_comm dim dim (fun b l => F2 j i a * (x2 b a l * F1 k b) * F1 l d0)). apply S_ext. intros l Hl. rewrite S_mult_r, S_mult_l. apply S_ext. intros b Hb. ring. }
    rewrite S_plus. apply S_ext. intros a Ha. rewrite S_plus. apply S_ext. intros b Hb. rewrite S_plus. apply S_ext. intros l Hl.
    transitivity (S_ dim (fun c => x3 c b a l * F1 k c) * (F1 i a * F1 j b * F1 l d0) + x2 b a l * (F1 i a * F2 k j b + F1 j b * F2 k i a + F1 k b * F2 j i a) * F1 l d0); [ring|].
    f_equal. rewrite S_mult_r. apply S_ext. intros c Hc. ring.
  Qed.
End Inverse.
