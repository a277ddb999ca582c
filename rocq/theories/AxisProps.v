(** Property theorems about axes and knot vectors: C01-C07, C29, C55. *)
From Coq Require Import ZArith List Bool Lia Reals Lra Sorted.
From Coq Require Import ZifyBool ZifyNat.
From Verif Require Import Prelude RealOrd AxisModel AxisSpec AxisProofs AxisInitModel AxisInitSpec AxisInitProofs AxisProofs2.
Import ListNotations.
Open Scope Z_scope.

(** * C01 *)
Theorem C01_set_knots_accepts_exactly_valid :
  forall (O : KnotOrd) (a : axis O) (m : Z) (U : Z -> O),
  let (st, a') := axis_set_knots m U a in
  (st = Ok <-> valid_knots (ax_p a) m U) /\
  (st = Ok -> ax_p a' = ax_p a /\ ax_m a' = m /\ ax_U a' = U /\ ax_periodic a' = ax_periodic a) /\
  (st <> Ok -> a' = a) /\ st <> ErrFuel.
Proof. exact @set_knots_exact. Qed.
Print Assumptions C01_set_knots_accepts_exactly_valid.

Definition deg2 (per : bool) : axis Zord := @mk_axis Zord per 2 1 (fun _ => 0) 1 1 (Some [0]).
(** Degree 2, a double interior knot: accepted; a triple interior knot: rejected. *)
Example C01_example :
  fst (axis_set_knots 8 (arr 0 [0;0;0;1;1;2;3;3;3]) (deg2 false)) = Ok /\
  valid_knots (O:=Zord) 2 8 (arr 0 [0;0;0;1;1;2;3;3;3]) /\
  fst (axis_set_knots 8 (arr 0 [0;0;0;1;1;1;3;3;3]) (deg2 false)) = ErrRange /\
  ~ valid_knots (O:=Zord) 2 8 (arr 0 [0;0;0;1;1;1;3;3;3]).
Proof.
  split; [reflexivity|]. split; [|split; [reflexivity|]].
  - apply valid_by_run with (u0 := 0). reflexivity.
  - intros (_ & _ & _ & H). specialize (H 1). vm_compute in H. congruence.
Qed.

(** * C02 *)
Theorem C02_spans_are_the_elements :
  forall (O : KnotOrd) (a a' : axis O) (m : Z) (U : Z -> O),
  axis_set_knots m U a = (Ok, a') ->
  exists l, ax_span a' = Some l /\ ax_nel a' = Z.of_nat (length l) /\
            is_element_list (ax_p a) m U l.
Proof. intros O a a' m U H. exact (set_knots_spans a m U a' H). Qed.
Print Assumptions C02_spans_are_the_elements.

Theorem C02_elements_cover_the_domain :
  forall (O : KnotOrd) (p m : Z) (U : Z -> O) (l : list Z),
  valid_knots p m U -> is_element_list p m U l ->
  (forall i d, (S i < length l)%nat -> keq (U (nth i l d + 1)) (U (nth (S i) l d))) /\
  (l <> [] -> forall d, keq (U p) (U (hd d l)) /\ keq (U (last l d + 1)) (U (m-p))).
Proof.
  intros O p m U l (Hp & Hm & Hnd & _) HL.
  exact (conj (elements_contiguous p m U l Hp Hm Hnd HL)
              (elements_cover_ends p m U l Hp Hm Hnd HL)).
Qed.
Print Assumptions C02_elements_cover_the_domain.

Example C02_example :
  option_map ax_span (Some (snd (axis_set_knots 9 (arr 0 [0;0;0;1;1;2;4;4;5;6]) (deg2 false))))
  = Some (Some [2;4;5]).
Proof. reflexivity. Qed.

(** * C03 *)
Theorem C03_init_uniform_clamped :
  forall (N : Z) (Ui Uf : R) (C0 : Z) (U0 : Z -> R) (a : axis Rord),
  ax_periodic a = false ->
  let (st, a') := axis_init_uniform N Ui Uf C0 U0 a in
  let p := ax_p a in
  let C := if C0 =? -1 then p - 1 else C0 in
  let x := fun b => (Ui + IZR b / IZR N * (Uf - Ui))%R in
  (st = Ok <-> 1 <= p /\ 1 <= N /\ (Ui < Uf)%R /\ 0 <= C < p) /\
  (st <> Ok -> a' = a) /\
  (st = Ok ->
     let U := ax_U a' in let m := ax_m a' in
     valid_knots (O:=Rord) p m U /\
     ax_nel a' = N /\ ax_nnp a' = N*(p-C) + C + 1 /\ ax_p a' = p /\
     (exists l, ax_span a' = Some l /\ is_element_list (O:=Rord) p m U l /\ Z.of_nat (length l) = N /\
        forall b, 0 <= b < N -> U (nth (Z.to_nat b) l 0) = x b /\ U (nth (Z.to_nat b) l 0 + 1) = x (b+1)) /\
     count_eq (O:=Rord) U 0 m Ui = p + 1 /\ count_eq (O:=Rord) U 0 m Uf = p + 1 /\
     (forall b, 1 <= b <= N-1 -> count_eq (O:=Rord) U 0 m (x b) = p - C) /\
     (forall i, 0 <= i <= m -> exists b, 0 <= b <= N /\ U i = x b)).
Proof.
  intros N Ui Uf C0 U0 a Hper. pose proof (init_uniform_spec N Ui Uf C0 U0 a) as H.
  destruct (axis_init_uniform N Ui Uf C0 U0 a) as [st a'].
  cbv zeta in *. destruct H as (H1 & H2 & H3).
  split; [exact H1|]. split; [exact H2|]. intros Hok.
  destruct (proj1 H1 Hok) as (_ & HN & _).
  specialize (H3 Hok). rewrite Hper in H3. destruct H3 as [G1 G2 G3 G4 G5 G6 G7 G8 G9 G10 G11].
  destruct (G11 eq_refl) as (_ & _ & K3 & K4 & K5 & K6).
  assert (HNp : (0 < IZR N)%R) by (apply IZR_lt; lia).
  replace (Ui + 0 / IZR N * (Uf - Ui))%R with Ui in K3 by (field; lra).
  replace (Ui + IZR N / IZR N * (Uf - Ui))%R with Uf in K4 by (field; lra).
  split; [exact G4|]. split; [exact G5|]. split; [exact G7|]. split; [exact G2|].
  split; [|auto].
  destruct G6 as (l & L1 & L2 & L3 & L4). exists l. split; [auto|]. split; [auto|]. split; [auto|].
  intros b Hb. destruct (L4 b Hb) as (E1 & E2 & E3). rewrite E1. auto.
Qed.
Print Assumptions C03_init_uniform_clamped.

Definition degR (per : bool) (p : Z) : axis Rord := @mk_axis Rord per p 1 (fun _ => 0%R) 1 1 (Some [0]).
(** Cubic, C^1, five elements on [-1,4]: 12 functions, and the routine succeeds. *)
Example C03_example :
  fst (axis_init_uniform 5 (-1) 4 1 (fun _ => 0%R) (degR false 3)) = Ok /\
  ax_nnp (snd (axis_init_uniform 5 (-1) 4 1 (fun _ => 0%R) (degR false 3))) = 12.
Proof.
  unfold axis_init_uniform. assert (E : Rltb (-1) 4 = true) by (apply Rltb_true; lra). rewrite E.
  split; reflexivity.
Qed.

(** * C04 *)
Theorem C04_init_uniform_periodic :
  forall (N : Z) (Ui Uf : R) (C0 : Z) (U0 : Z -> R) (a a' : axis Rord),
  ax_periodic a = true ->
  axis_init_uniform N Ui Uf C0 U0 a = (Ok, a') ->
  let p := ax_p a in
  let C := if C0 =? -1 then p - 1 else C0 in
  let x := fun b => (Ui + IZR b / IZR N * (Uf - Ui))%R in
  let U := ax_U a' in let m := ax_m a' in
  ax_periodic a' = true /\ ax_p a' = p /\
  valid_knots (O:=Rord) p m U /\
  ax_nel a' = N /\ ax_nnp a' = N*(p-C) /\
  (forall i, 0 <= i -> i + ax_nnp a' <= m -> U (i + ax_nnp a') = (U i + (Uf - Ui))%R) /\
  (exists l, ax_span a' = Some l /\ is_element_list (O:=Rord) p m U l /\ Z.of_nat (length l) = N /\
     forall b, 0 <= b < N -> U (nth (Z.to_nat b) l 0) = x b /\ U (nth (Z.to_nat b) l 0 + 1) = x (b+1)) /\
  (forall b, 1 <= b <= N-1 -> count_eq (O:=Rord) U p (m-p) (x b) = p - C).
Proof.
  intros N Ui Uf C0 U0 a a' Hper E. pose proof (init_uniform_spec N Ui Uf C0 U0 a) as H.
  rewrite E in H. cbv zeta in *. destruct H as (H1 & _ & H3).
  destruct (proj1 H1 eq_refl) as (_ & HN & _).
  specialize (H3 eq_refl). rewrite Hper in H3. destruct H3 as [G1 G2 G3 G4 G5 G6 G7 G8 G9 G10 G11].
  assert (HNp : (0 < IZR N)%R) by (apply IZR_lt; lia).
  split; [exact G1|]. split; [exact G2|]. split; [exact G4|]. split; [exact G5|]. split; [exact G7|].
  split; [|split].
  - intros i Hi Him. rewrite (G10 eq_refl i Hi Him). Rgoal. field. lra.
  - destruct G6 as (l & L1 & L2 & L3 & L4). exists l. split; [auto|]. split; [auto|]. split; [auto|].
    intros b Hb. destruct (L4 b Hb) as (E1 & E2 & E3). rewrite E1. auto.
  - exact G9.
Qed.
Print Assumptions C04_init_uniform_periodic.

(** One single periodic quartic element: the wrap-around loop reads back its own writes. *)
Example C04_example : exists a',
  axis_init_uniform 1 0 1 (-1) (fun _ => 0%R) (degR true 4) = (Ok, a') /\
  ax_nnp a' = 1 /\ ax_m a' = 9 /\ ax_U a' 0 = (-4)%R /\ ax_U a' 9 = 5%R.
Proof.
  unfold axis_init_uniform. assert (E : Rltb 0 1 = true) by (apply Rltb_true; lra). rewrite E.
  eexists. split; [reflexivity|]. repeat split.
  - Rgoal. cbv -[Rplus Rminus Rmult Rdiv Rinv Ropp IZR R]. lra.
  - Rgoal. cbv -[Rplus Rminus Rmult Rdiv Rinv Ropp IZR R]. lra.
Qed.

(** The same two facts for IGAAxisInitBreaks, arbitrary strictly increasing breaks. *)
Theorem C03_C04_init_breaks :
  forall (nu : Z) (u : Z -> R) (C0 : Z) (U0 : Z -> R) (a : axis Rord),
  let (st, a') := axis_init_breaks nu u C0 U0 a in
  let p := ax_p a in let C := if C0 =? -1 then p - 1 else C0 in
  (st = Ok <-> 1 <= p /\ 2 <= nu /\ (forall i, 1 <= i < nu -> (u (i-1)%Z < u i)%R) /\ 0 <= C < p) /\
  (st <> Ok -> a' = a) /\
  (st = Ok -> good_axis p C (nu-1) u (ax_periodic a) a').
Proof. exact init_breaks_spec. Qed.
Print Assumptions C03_C04_init_breaks.

(** * C05 *)
Theorem C05_nnp_after_set_knots :
  forall (O : KnotOrd) (a a' : axis O) (m : Z) (U : Z -> O),
  axis_set_knots m U a = (Ok, a') ->
  ax_nnp a' = (if ax_periodic a
               then (m - ax_p a - 1) - (ax_p a - count_eq U (m - ax_p a) (m-1) (U (m - ax_p a)))
               else m - ax_p a) /\
  1 <= ax_nnp a' <= m - ax_p a /\
  axis_setup a' = (Ok, a').
Proof. intros O a a' m U H. exact (set_knots_nnp a m U a' H). Qed.
Print Assumptions C05_nnp_after_set_knots.

Theorem C05_setup_agrees_with_init_uniform :
  forall (N : Z) (Ui Uf : R) (C0 : Z) (U0 : Z -> R) (a a' : axis Rord),
  axis_init_uniform N Ui Uf C0 U0 a = (Ok, a') -> axis_setup a' = (Ok, a').
Proof.
  intros N Ui Uf C0 U0 a a' E. pose proof (init_uniform_spec N Ui Uf C0 U0 a) as H.
  rewrite E in H. destruct H as (H1 & _ & H3).
  eapply setup_good; [|exact (H3 eq_refl)]. apply H1; auto.
Qed.
Print Assumptions C05_setup_agrees_with_init_uniform.

Example C05_example :
  ax_nnp (snd (axis_set_knots 8 (arr 0 [0;1;2;3;4;5;6;7;8]) (deg2 true))) = 4 /\
  ax_nnp (snd (axis_set_knots 8 (arr 0 [0;1;2;3;4;5;6;7;8]) (deg2 false))) = 6.
Proof. split; reflexivity. Qed.

(** * C06 *)
Theorem C06_accepted_knots_have_an_element_refuted :
  exists (a : axis Zord) (m : Z) (U : Z -> Z) (a' : axis Zord),
    axis_set_knots m U a = (Ok, a') /\ ax_nel a' = 0.
Proof.
  exists (deg2 false), 5, (arr 0 [0;1;2;2;3;4]).
  eexists. split; reflexivity.
Qed.
Print Assumptions C06_accepted_knots_have_an_element_refuted.

Theorem C06_accepted_knots_have_an_element_partial :
  forall (O : KnotOrd) (a a' : axis O) (m : Z) (U : Z -> O),
  axis_set_knots m U a = (Ok, a') ->
  (1 <= ax_nel a' <-> klt (U (ax_p a)) (U (m - ax_p a))) /\
  (ax_p a = 1 \/ keq (U 1) (U (ax_p a)) \/ keq (U (m - ax_p a)) (U (m-1)) -> 1 <= ax_nel a').
Proof. intros O a a' m U H. exact (set_knots_has_element a m U a' H). Qed.
Print Assumptions C06_accepted_knots_have_an_element_partial.

Example C06_example :
  fst (axis_set_knots 6 (arr 0 [0;0;0;1;2;2;2]) (deg2 false)) = Ok /\
  keq (O:=Zord) (arr 0 [0;0;0;1;2;2;2] 1) (arr 0 [0;0;0;1;2;2;2] 2).
Proof. repeat split; reflexivity. Qed.

(** * C07 *)
Theorem C07_failed_init_keeps_axis_refuted :
  exists (a a' : axis Zord) (p m : Z) (U : Z -> Z) (st : status),
    axis_set_knots 3 (arr 0 [0;0;1;1]) (@mk_axis Zord false 1 1 (fun _ => 0) 1 1 (Some [0])) = (Ok, a) /\
    axis_init p m U a = (st, a') /\ st <> Ok /\ ax_p a' <> ax_p a /\
    fst (axis_setup a) = Ok /\ fst (axis_setup a') <> Ok.
Proof.
  exists (snd (axis_set_knots 3 (arr 0 [0;0;1;1]) (@mk_axis Zord false 1 1 (fun _ => 0) 1 1 (Some [0])))).
  eexists. exists 2, 5, (arr 0 [0;0;0;1;1;0]). eexists.
  split; [reflexivity|]. split; [reflexivity|]. repeat split; vm_compute; congruence.
Qed.
Print Assumptions C07_failed_init_keeps_axis_refuted.

Theorem C07_failed_init_keeps_axis_partial :
  forall (O : KnotOrd) (a a' : axis O) (p m : Z) (U : Z -> O) (st : status),
  axis_init p m U a = (st, a') -> st <> Ok ->
  ax_m a' = ax_m a /\ ax_U a' = ax_U a /\ ax_span a' = ax_span a /\
  ax_nel a' = ax_nel a /\ ax_nnp a' = ax_nnp a /\ ax_periodic a' = ax_periodic a.
Proof. exact @axis_init_failure. Qed.
Print Assumptions C07_failed_init_keeps_axis_partial.

Example C07_example :
  fst (axis_init 2 5 (arr 0 [0;0;0;1;1;0]) (deg2 false)) = ErrRange.
Proof. reflexivity. Qed.

(** * C29 *)
Theorem C29_find_span_correct :
  forall (O : KnotOrd) (n p : Z) (u : O) (U : Z -> O), 0 <= p <= n ->
  klt (U p) (U (p+1)) -> klt (U n) (U (n+1)) ->
  kle (U p) u -> kle u (U (n+1)) ->
  exists k, find_span n p u U = Some k /\ p <= k <= n /\
    klt (U k) (U (k+1)) /\ kle (U k) u /\ kle u (U (k+1)) /\
    (klt u (U (k+1)) \/ (k = n /\ keq u (U (n+1)))).
Proof. exact @find_span_domain. Qed.
Print Assumptions C29_find_span_correct.

Theorem C29_find_span_terminates :
  forall (O : KnotOrd) (n p : Z) (u : O) (U : Z -> O), p <= n ->
  exists k, find_span n p u U = Some k /\ p <= k <= n.
Proof.
  intros O n p u U H. destruct (find_span_spec n p u U H) as (k & Hk & Hb & _).
  exact (ex_intro _ k (conj Hk Hb)).
Qed.
Print Assumptions C29_find_span_terminates.

Theorem C29_find_span_reads_only_domain_knots :
  forall (O : KnotOrd) (n p : Z) (u : O) (U V : Z -> O), p <= n ->
  (forall i, p <= i <= n+1 -> U i = V i) -> find_span n p u U = find_span n p u V.
Proof. exact @find_span_local. Qed.
Print Assumptions C29_find_span_reads_only_domain_knots.

Example C29_example :
  find_span (O:=Zord) 5 2 4 (arr 0 [0;0;0;2;2;4;6;6;6]) = Some 5 /\
  find_span (O:=Zord) 5 2 3 (arr 0 [0;0;0;2;2;4;6;6;6]) = Some 4 /\
  find_span (O:=Zord) 5 2 6 (arr 0 [0;0;0;2;2;4;6;6;6]) = Some 5.
Proof. repeat split; reflexivity. Qed.

(** * C55: without the hypothesis on the end intervals the span found can be empty. *)
Theorem C55_find_span_nonempty_refuted :
  exists (p m : Z) (U : Z -> Z) (u : Z) (k : Z),
    valid_knots (O:=Zord) p m U /\ U p < U (m-p) /\ U p <= u <= U (m-p) /\
    find_span (O:=Zord) (m-p-1) p u U = Some k /\ U k = U (k+1).
Proof.
  exists 2, 6, (arr 0 [0;1;2;2;3;4;5]), 2, 2. split.
  - apply valid_by_run with (u0 := 0). reflexivity.
  - repeat split; vm_compute; congruence.
Qed.
Print Assumptions C55_find_span_nonempty_refuted.
