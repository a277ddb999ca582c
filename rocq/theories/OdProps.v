(** C127, C128: the helpers of src/petigaopts.c on the options data base. *)
From Coq Require Import String.
From Coq Require Import ZArith List Bool Lia.
From Verif Require Import Prelude OdModel OdSpec.
Import ListNotations.
Open Scope string_scope.

Lemma append_nil_r : forall s, s ++ "" = s.
Proof. induction s as [|c s IH]; cbn; [reflexivity|]. rewrite IH. reflexivity. Qed.
Lemma append_assoc : forall a b c : string, (a ++ b) ++ c = a ++ (b ++ c).
Proof. induction a as [|x a IH]; intros; cbn; [reflexivity|]. rewrite IH. reflexivity. Qed.
Lemma substring_all : forall s n, (String.length s <= n)%nat -> substring 0 n s = s.
Proof.
  induction s as [|c s IH]; intros n H; destruct n; cbn in *; try reflexivity; try lia. rewrite IH by lia. reflexivity.
Qed.
Lemma cut_short : forall s, (String.length s <= 1023)%nat -> cut s = s.
Proof. intros. apply substring_all. auto. Qed.

(** With an empty stack an alias comes before the name itself, the name before the default, and no other option changes. *)
Theorem C127_alias : forall d alias defval name, o_stack d = [] -> fits (o_map d alias) -> fits defval ->
  exists d', IGAOptionsAlias alias defval name d = (Ok, d') /\ o_stack d' = [] /\
    forall x, o_map d' x = if string_dec x name then first_given [o_map d alias; o_map d name; defval] else o_map d x.
Proof.
  intros d alias defval name Hs Ha Hd. unfold IGAOptionsAlias, has_name, get_string. cbn [append].
  assert (Hset : forall v x, o_map (set_value name v d) x = if string_dec x name then Some v else o_map d x).
  { intros v x. unfold set_value, stack_prefix. rewrite Hs. cbn [fold_left append o_map].
    destruct (String.eqb_spec x name), (string_dec x name); congruence. }
  destruct (o_map d alias) as [va|] eqn:Ea.
  - eexists. split; [reflexivity|]. split; [exact Hs|]. intros x. rewrite Hset.
    rewrite cut_short by (apply Ha; auto). reflexivity.
  - assert (Hsame : forall x, o_map d x = if string_dec x name then o_map d name else o_map d x).
    { intros x. destruct (string_dec x name); congruence. }
    destruct defval as [v|].
    + destruct (o_map d name) as [vn|] eqn:En.
      * exists d. split; [reflexivity|]. split; auto.
      * eexists. split; [reflexivity|]. split; [exact Hs|]. intros x. rewrite Hset, cut_short by (apply Hd; auto). reflexivity.
    + exists d. split; [reflexivity|]. split; auto. intros x. rewrite Hsame at 1. cbn [first_given].
      destruct (string_dec x name); auto. destruct (o_map d name); reflexivity.
Qed.
Print Assumptions C127_alias.

Lemma default_map : forall d prefix name value, o_stack d = [] ->
  exists d', IGAOptionsDefault prefix name value d = (Ok, d') /\ o_stack d' = [] /\
    forall x, o_map d' x = if string_dec (prefix ++ name) x then first_given [o_map d x; Some value] else o_map d x.
Proof.
  intros d prefix name value Hs. unfold IGAOptionsDefault, has_name.
  destruct (o_map d (prefix ++ name)) as [v|] eqn:E.
  - exists d. split; [reflexivity|]. split; auto. intros x. destruct (string_dec (prefix ++ name) x) as [<-|]; auto. rewrite E. reflexivity.
  - eexists. split; [reflexivity|]. destruct (String.eqb_spec prefix "") as [->|Hp].
    + split; [exact Hs|]. intros x. unfold set_value, stack_prefix. rewrite Hs. cbn [fold_left append o_map] in *.
      destruct (String.eqb_spec x name), (string_dec name x); try congruence. subst. rewrite E. reflexivity.
    + unfold prefix_pop, set_value, prefix_push, stack_prefix. cbn [o_stack o_map tl fold_left]. rewrite Hs. cbn [fold_left].
      split; auto. intros x. rewrite append_nil_r.
      destruct (String.eqb_spec x (prefix ++ name)), (string_dec (prefix ++ name) x); try congruence. subst. rewrite E. reflexivity.
Qed.

(** Any sequence of defaults: what was given stays; where nothing was given the first default holds. *)
Fixpoint set_defaults (l : list (string * string * string)) (d : odb) : status * odb :=
  match l with
  | [] => (Ok, d)
  | (p, n, v) :: l => match IGAOptionsDefault p n v d with (Ok, d) => set_defaults l d | e => e end
  end.
Theorem C127_defaults : forall l d, o_stack d = [] ->
  exists d', set_defaults l d = (Ok, d') /\ o_stack d' = [] /\
    forall x, o_map d' x = first_given (o_map d x :: values_of x (map (fun c => (fst (fst c) ++ snd (fst c), snd c)) l)).
Proof.
  induction l as [|[[p n] v] l IH]; intros d Hs; cbn [set_defaults].
  - exists d. split; [reflexivity|]. split; auto. intros x. cbn. destruct (o_map d x); reflexivity.
  - destruct (default_map d p n v Hs) as (d1 & E & Hs1 & H1). rewrite E.
    destruct (IH d1 Hs1) as (d2 & E2 & Hs2 & H2). exists d2. split; auto. split; auto.
    intros x. rewrite H2, H1. cbn [values_of map fst snd].
    destruct (string_dec (p ++ n) x); destruct (o_map d x); reflexivity.
Qed.
Print Assumptions C127_defaults.

(** Disabled options: an error where one is given, and the data base stays. *)
Theorem C127_reject : forall d prefix name,
  (fst (IGAOptionsReject prefix name d) = Ok <-> o_map d (prefix ++ name) = None) /\
  (o_map d (prefix ++ name) <> None -> fst (IGAOptionsReject prefix name d) = ErrRange) /\
  snd (IGAOptionsReject prefix name d) = d.
Proof.
  intros d prefix name. unfold IGAOptionsReject, has_name. destruct (o_map d (prefix ++ name)); cbn; repeat split; intros; try congruence.
Qed.
Print Assumptions C127_reject.

(** The stack of prefixes is the caller's again. *)
Theorem C127_stack : forall d prefix name value alias defval,
  o_stack (snd (IGAOptionsDefault prefix name value d)) = o_stack d /\
  o_stack (snd (IGAOptionsAlias alias defval name d)) = o_stack d.
Proof.
  intros. unfold IGAOptionsDefault, IGAOptionsAlias. split.
  - destruct (has_name prefix name d); auto. cbn [snd]. destruct (prefix =? ""); reflexivity.
  - destruct (has_name "" alias d); auto. destruct defval; auto. destruct (has_name "" name d); auto.
Qed.
Print Assumptions C127_stack.

(** Between PetscOptionsPrefixPush and Pop a default replaces a value that was given. *)
Theorem C127_stack_refuted : exists d prefix name value, o_stack d <> [] /\
  o_map d (stack_prefix d ++ prefix ++ name) = Some "8" /\
  o_map (snd (IGAOptionsDefault prefix name value d)) (stack_prefix d ++ prefix ++ name) = Some "2".
Proof.
  exists (set_value "iga_dim" "8" (mk_odb (fun _ => None) ["a_"])), "", "iga_dim", "2".
  split; [discriminate|]. split; reflexivity.
Qed.
Print Assumptions C127_stack_refuted.

(** A value that does not fit the buffer is cut. *)
Theorem C127_long_refuted : exists d alias name, o_stack d = [] /\
  o_map (snd (IGAOptionsAlias alias None name d)) name <> o_map d alias /\ o_map d alias <> None.
Proof.
  exists (set_value "k" (Nat.iter 1024 (String (Ascii.Ascii true false false false false true true false)) "") (mk_odb (fun _ => None) [])), "k", "iga_elements".
  split; [reflexivity|]. split; [|discriminate]. vm_compute. discriminate.
Qed.
Print Assumptions C127_long_refuted.

(** The call of test/IGAErrNorm.c: [-n] is short for [-iga_elements], 8 by default. *)
Example C127_case : let d := mk_odb (fun x => if x =? "n" then Some "16" else None) [] in
  fits (o_map d "n") /\ fits (Some "8") /\ o_map (snd (IGAOptionsAlias "n" (Some "8") "iga_elements" d)) "iga_elements" = Some "16" /\
  o_map (snd (IGAOptionsAlias "d" (Some "2") "iga_dim" d)) "iga_dim" = Some "2".
Proof. split; [|split; [|split; reflexivity]]; intros v H; injection H as <-; cbn; lia. Qed.

(** One string: what the pointer reads right after the call. *)
Theorem C128_string : forall prefix name defval d buffer, fits (o_map d (prefix ++ name)) -> fits defval ->
  Some (IGAGetOptString prefix name defval d buffer) = first_given [o_map d (prefix ++ name); defval; Some ""].
Proof.
  intros prefix name defval d buffer H Hd. unfold IGAGetOptString, get_string.
  destruct (o_map d (prefix ++ name)) as [v|]; cbn [first_given].
  - rewrite cut_short; auto.
  - destruct defval as [v|]; auto. rewrite cut_short; auto.
Qed.
Print Assumptions C128_string.

(** The other types: the option if there is one, else the default; PETSc's conversion decides what an error is. *)
Theorem C128_value : forall A (parse : string -> option A) (print : A -> string) prefix name defval d x,
  (forall a, parse (print a) = Some a) ->
  (o_map d (prefix ++ name) = None -> IGAGetOpt parse prefix name defval d = Some defval) /\
  (o_map d (prefix ++ name) = Some (print x) -> IGAGetOpt parse prefix name defval d = Some x).
Proof. intros. unfold IGAGetOpt. split; intros E; rewrite E; auto. Qed.
Print Assumptions C128_value.

(** All pointers read the value of the last call. *)
Theorem C128_last : forall d calls p n v buffer i, (i < length (calls ++ [(p, n, v)]))%nat ->
  nth_error (read_back d (calls ++ [(p, n, v)]) buffer) i = Some (IGAGetOptString p n v d "").
Proof.
  intros d calls p n v buffer i Hi. unfold read_back. rewrite nth_error_map.
  destruct (nth_error (calls ++ [(p, n, v)]) i) eqn:E; [|apply nth_error_None in E; lia].
  cbn [option_map]. f_equal. unfold buffers. rewrite fold_left_app. reflexivity.
Qed.
Print Assumptions C128_last.

(** So two strings asked for one after the other are not the two options. *)
Theorem C128_two_refuted : exists d a b va vb, o_map d a = Some va /\ o_map d b = Some vb /\ va <> vb /\
  forall buffer, IGAGetOptString "" a None d buffer = va /\
    read_back d [("", a, None); ("", b, None)] buffer = [vb; vb].
Proof.
  exists (mk_odb (fun x => if x =? "in" then Some "a.dat" else if x =? "out" then Some "b.dat" else None) []), "in", "out", "a.dat", "b.dat".
  repeat split; try reflexivity. discriminate.
Qed.
Print Assumptions C128_two_refuted.

Example C128_case : let d := mk_odb (fun x => if x =? "f_in" then Some "a.dat" else None) [] in
  fits (o_map d ("f_" ++ "in")) /\ IGAGetOptString "f_" "in" (Some "x") d "old" = "a.dat" /\ IGAGetOptString "" "in" (Some "x") d "old" = "x".
Proof. split; [|split; reflexivity]. intros v H. injection H as <-. cbn. lia. Qed.
