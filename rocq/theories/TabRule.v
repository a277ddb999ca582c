(** The points of the Gauss tables are distinct. *)
From Coq Require Import ZArith List Bool Lia Reals Lra Sorted.
From Coq Require Import ZifyBool ZifyNat.
From Verif Require Import Prelude RealOrd AxisModel RuleModel RuleSpec RuleProofs RuleProofs2.
Import ListNotations.
Open Scope R_scope.

Fixpoint zgaps (l : list Z) : bool :=
  match l with
  | x :: ((y :: _) as l') => ((x + 10^30 <=? y) && (Z.abs x <=? S36) && zgaps l')%Z
  | [x] => (Z.abs x <=? S36)%Z
  | [] => true
  end.

Lemma near_lt z z' r r' : (z + 10^30 <= z')%Z -> (Z.abs z <= S36)%Z -> (Z.abs z' <= S36)%Z -> nearx z r -> nearx z' r' -> r < r'.
Proof.
  intros H A A' [N _] [N' _]. unfold near in *. pose proof (dec_bound z A) as B. pose proof (dec_bound z' A') as B'.
  assert (D : dec z + / 10^6 <= dec z').
  { unfold dec. apply IZR_le in H. rewrite plus_IZR in H. pose proof S36_pos as P.
    apply (Rmult_le_reg_r (IZR S36)); auto. rewrite Rmult_plus_distr_r. unfold Rdiv. rewrite !Rmult_assoc, !Rinv_l by lra.
    replace (/ 10^6 * IZR S36) with (IZR (10^30)); [lra|]. unfold S36. change (10^36)%Z with (10^30 * 10^6)%Z. rewrite mult_IZR.
    replace (IZR (10^6)) with (10^6); [field|]. rewrite (pow_IZR 10 6). reflexivity. }
  assert (E : / 2^53 * 2 <= / 10^7).
  { replace (2^53) with (IZR (2^53)) by (rewrite (pow_IZR 2 53); reflexivity). replace (10^7) with (IZR (10^7)) by (rewrite (pow_IZR 10 7); reflexivity).
    apply (Rmult_le_reg_r (IZR (2^53) * IZR (10^7))); [apply Rmult_lt_0_compat; apply IZR_lt; reflexivity|].
    replace (/ IZR (2 ^ 53) * 2 * (IZR (2 ^ 53) * IZR (10 ^ 7))) with (2 * IZR (10^7)) by (field; apply not_0_IZR; discriminate).
    replace (/ IZR (10 ^ 7) * (IZR (2 ^ 53) * IZR (10 ^ 7))) with (IZR (2^53)) by (field; apply not_0_IZR; discriminate).
    rewrite <- mult_IZR. apply IZR_le. vm_compute. discriminate. }
  assert (F : / 10^7 < / 10^6) by (apply Rinv_lt_contravar; lra).
  assert (P53 : 0 < / 2^53) by (apply Rinv_0_lt_compat, pow_lt; lra).
  assert (Q : / 2^53 * Rabs (dec z) <= / 2^53 * 1) by (apply Rmult_le_compat_l; lra).
  assert (Q' : / 2^53 * Rabs (dec z') <= / 2^53 * 1) by (apply Rmult_le_compat_l; lra).
  assert (M : - (/ 2^53) <= r - dec z <= / 2^53) by (unfold Rabs in N at 1; destruct (Rcase_abs (r - dec z)); lra).
  assert (M' : - (/ 2^53) <= r' - dec z' <= / 2^53) by (unfold Rabs in N' at 1; destruct (Rcase_abs (r' - dec z')); lra). lra.
Qed.

Lemma gaps_sorted xs : forall X, zgaps xs = true -> Forall2 nearx xs X -> StronglySorted Rlt X.
Proof.
  intros X G N. apply Sorted_StronglySorted; [intros a b c; apply Rlt_trans|]. revert xs X G N.
  induction xs as [|x xs IH]; intros X G N; inversion N as [|? r ? X' N1 N2]; subst; [constructor|].
  destruct xs as [|y xs]; inversion N2 as [|? r' ? X2 N3 N4]; subst; [repeat constructor|].
  cbn [zgaps] in G. apply andb_prop in G. destruct G as [G G3]. apply andb_prop in G. destruct G as [G1 G2].
  constructor; [apply IH; auto|]. constructor. apply (near_lt x y); auto; try lia.
  destruct xs; cbn [zgaps] in G3; [lia|]. apply andb_prop in G3. destruct G3 as [G3 _]. apply andb_prop in G3. lia.
Qed.
Lemma sorted_nodup X : StronglySorted Rlt X -> NoDup X.
Proof.
  induction 1 as [|x X _ IH F]; constructor; auto. intros Hin. rewrite Forall_forall in F. specialize (F x Hin). lra.
Qed.

Lemma legendre_gaps q : (1 <= q <= 10)%Z -> match gauss_legendre (fun z => z) Z.opp q with Some (xs, _) => zgaps xs = true | None => False end.
Proof. intros H. assert (q = 1 \/ q = 2 \/ q = 3 \/ q = 4 \/ q = 5 \/ q = 6 \/ q = 7 \/ q = 8 \/ q = 9 \/ q = 10)%Z as C by lia. repeat destruct C as [-> | C]; [..|subst q]; vm_compute; reflexivity. Qed.
Lemma lobatto_gaps q : (2 <= q <= 10)%Z -> match gauss_lobatto (fun z => z) Z.opp q with Some (xs, _) => zgaps xs = true | None => False end.
Proof. intros H. assert (q = 2 \/ q = 3 \/ q = 4 \/ q = 5 \/ q = 6 \/ q = 7 \/ q = 8 \/ q = 9 \/ q = 10)%Z as C by lia. repeat destruct C as [-> | C]; [..|subst q]; vm_compute; reflexivity. Qed.

Lemma legendre_nodup lit q X W : rounds lit -> gauss_legendre lit Ropp q = Some (X, W) -> NoDup X.
Proof.
  intros H E. assert (Hq : (1 <= q <= 10)%Z).
  { destruct (Z_le_dec 1 q) as [A|A]; [destruct (Z_le_dec q 10) as [B|B]; [lia|]|]; rewrite legendre_none in E by lia; discriminate. }
  pose proof (legendre_near lit q H Hq) as N. pose proof (legendre_gaps q Hq) as G. unfold tables_near in N. rewrite E in N.
  destruct (gauss_legendre (fun z => z) Z.opp q) as [[xs ws]|]; [|contradiction]. destruct N as (N1 & _).
  apply sorted_nodup. apply (gaps_sorted xs); auto.
Qed.
Lemma lobatto_nodup lit q X W : rounds lit -> gauss_lobatto lit Ropp q = Some (X, W) -> NoDup X.
Proof.
  intros H E. assert (Hq : (2 <= q <= 10)%Z).
  { destruct (Z_le_dec 2 q) as [A|A]; [destruct (Z_le_dec q 10) as [B|B]; [lia|]|]; rewrite lobatto_none in E by lia; discriminate. }
  pose proof (lobatto_near lit q H Hq) as N. pose proof (lobatto_gaps q Hq) as G. unfold tables_near in N. rewrite E in N.
  destruct (gauss_lobatto (fun z => z) Z.opp q) as [[xs ws]|]; [|contradiction]. destruct N as (N1 & _).
  apply sorted_nodup. apply (gaps_sorted xs); auto.
Qed.
