(** Quadrature rules (src/petigarule.c) and the quadrature tables of a basis (src/petigabasis.c).
    Definitions only.  A constant Q(d) of the source, written with 36 decimals, is the integer
    d * 10^36 passed to [lit]. *)
From Coq Require Import ZArith List Bool Reals.
From Verif Require Import Prelude RealOrd AxisModel.
Import ListNotations.
Open Scope Z_scope.

Section Tables.
  Context {T : Type}.
  Variables (lit : Z -> T) (neg : T -> T).

  (** src/petigarule.c:182-319 IGA_Rule_GaussLegendre: None is the return value -1. *)
  Definition gauss_legendre (q : Z) : option (list T * list T) :=
    match q with
    | 1 =>
        let x0 := lit 0 in
        let w0 := lit 2000000000000000000000000000000000000 in
        Some ([x0], [w0])
    | 2 =>
        let x0 := neg (lit 577350269189625764509148780501957456) in
        let x1 := neg x0 in
        let w0 := lit 1000000000000000000000000000000000000 in
        let w1 := w0 in
        Some ([x0; x1], [w0; w1])
    | 3 =>
        let x0 := neg (lit 774596669241483377035853079956479922) in
        let x1 := lit 0 in
        let x2 := neg x0 in
        let w0 := lit 555555555555555555555555555555555556 in
        let w1 := lit 888888888888888888888888888888888889 in
        let w2 := w0 in
        Some ([x0; x1; x2], [w0; w1; w2])
    | 4 =>
        let x0 := neg (lit 861136311594052575223946488892809505) in
        let x1 := neg (lit 339981043584856264802665759103244687) in
        let x2 := neg x1 in
        let x3 := neg x0 in
        let w0 := lit 347854845137453857373063949221999407 in
        let w1 := lit 652145154862546142626936050778000593 in
        let w2 := w1 in
        let w3 := w0 in
        Some ([x0; x1; x2; x3], [w0; w1; w2; w3])
    | 5 =>
        let x0 := neg (lit 906179845938663992797626878299392965) in
        let x1 := neg (lit 538469310105683091036314420700208805) in
        let x2 := lit 0 in
        let x3 := neg x1 in
        let x4 := neg x0 in
        let w0 := lit 236926885056189087514264040719917363 in
        let w1 := lit 478628670499366468041291514835638193 in
        let w2 := lit 568888888888888888888888888888888889 in
        let w3 := w1 in
        let w4 := w0 in
        Some ([x0; x1; x2; x3; x4], [w0; w1; w2; w3; w4])
    | 6 =>
        let x0 := neg (lit 932469514203152027812301554493994609) in
        let x1 := neg (lit 661209386466264513661399595019905347) in
        let x2 := neg (lit 238619186083196908630501721680711935) in
        let x3 := neg x2 in
        let x4 := neg x1 in
        let x5 := neg x0 in
        let w0 := lit 171324492379170345040296142172732894 in
        let w1 := lit 360761573048138607569833513837716112 in
        let w2 := lit 467913934572691047389870343989550995 in
        let w3 := w2 in
        let w4 := w1 in
        let w5 := w0 in
        Some ([x0; x1; x2; x3; x4; x5], [w0; w1; w2; w3; w4; w5])
    | 7 =>
        let x0 := neg (lit 949107912342758524526189684047851262) in
        let x1 := neg (lit 741531185599394439863864773280788407) in
        let x2 := neg (lit 405845151377397166906606412076961463) in
        let x3 := lit 0 in
        let x4 := neg x2 in
        let x5 := neg x1 in
        let x6 := neg x0 in
        let w0 := lit 129484966168869693270611432679082018 in
        let w1 := lit 279705391489276667901467771423779582 in
        let w2 := lit 381830050505118944950369775488975134 in
        let w3 := lit 417959183673469387755102040816326531 in
        let w4 := w2 in
        let w5 := w1 in
        let w6 := w0 in
        Some ([x0; x1; x2; x3; x4; x5; x6], [w0; w1; w2; w3; w4; w5; w6])
    | 8 =>
        let x0 := neg (lit 960289856497536231683560868569472990) in
        let x1 := neg (lit 796666477413626739591553936475830437) in
        let x2 := neg (lit 525532409916328985817739049189246349) in
        let x3 := neg (lit 183434642495649804939476142360183981) in
        let x4 := neg x3 in
        let x5 := neg x2 in
        let x6 := neg x1 in
        let x7 := neg x0 in
        let w0 := lit 101228536290376259152531354309962190 in
        let w1 := lit 222381034453374470544355994426240884 in
        let w2 := lit 313706645877887287337962201986601313 in
        let w3 := lit 362683783378361982965150449277195612 in
        let w4 := w3 in
        let w5 := w2 in
        let w6 := w1 in
        let w7 := w0 in
        Some ([x0; x1; x2; x3; x4; x5; x6; x7], [w0; w1; w2; w3; w4; w5; w6; w7])
    | 9 =>
        let x0 := neg (lit 968160239507626089835576202903672870) in
        let x1 := neg (lit 836031107326635794299429788069734877) in
        let x2 := neg (lit 613371432700590397308702039341474185) in
        let x3 := neg (lit 324253423403808929038538014643336609) in
        let x4 := lit 0 in
        let x5 := neg x3 in
        let x6 := neg x2 in
        let x7 := neg x1 in
        let x8 := neg x0 in
        let w0 := lit 81274388361574411971892158110523651 in
        let w1 := lit 180648160694857404058472031242912810 in
        let w2 := lit 260610696402935462318742869418632850 in
        let w3 := lit 312347077040002840068630406584443666 in
        let w4 := lit 330239355001259763164525069286974049 in
        let w5 := w3 in
        let w6 := w2 in
        let w7 := w1 in
        let w8 := w0 in
        Some ([x0; x1; x2; x3; x4; x5; x6; x7; x8], [w0; w1; w2; w3; w4; w5; w6; w7; w8])
    | 10 =>
        let x0 := neg (lit 973906528517171720077964012084452053) in
        let x1 := neg (lit 865063366688984510732096688423493049) in
        let x2 := neg (lit 679409568299024406234327365114873576) in
        let x3 := neg (lit 433395394129247190799265943165784162) in
        let x4 := neg (lit 148874338981631210884826001129719985) in
        let x5 := neg x4 in
        let x6 := neg x3 in
        let x7 := neg x2 in
        let x8 := neg x1 in
        let x9 := neg x0 in
        let w0 := lit 66671344308688137593568809893331793 in
        let w1 := lit 149451349150580593145776339657697332 in
        let w2 := lit 219086362515982043995534934228163192 in
        let w3 := lit 269266719309996355091226921569469353 in
        let w4 := lit 295524224714752870173892994651338329 in
        let w5 := w4 in
        let w6 := w3 in
        let w7 := w2 in
        let w8 := w1 in
        let w9 := w0 in
        Some ([x0; x1; x2; x3; x4; x5; x6; x7; x8; x9], [w0; w1; w2; w3; w4; w5; w6; w7; w8; w9])
    | _ => None
    end.

  (** src/petigarule.c:321-454 IGA_Rule_GaussLobatto *)
  Definition gauss_lobatto (q : Z) : option (list T * list T) :=
    match q with
    | 2 =>
        let x0 := neg (lit 1000000000000000000000000000000000000) in
        let x1 := neg x0 in
        let w0 := lit 1000000000000000000000000000000000000 in
        let w1 := w0 in
        Some ([x0; x1], [w0; w1])
    | 3 =>
        let x0 := neg (lit 1000000000000000000000000000000000000) in
        let x1 := lit 0 in
        let x2 := neg x0 in
        let w0 := lit 333333333333333333333333333333333333 in
        let w1 := lit 1333333333333333333333333333333333333 in
        let w2 := w0 in
        Some ([x0; x1; x2], [w0; w1; w2])
    | 4 =>
        let x0 := neg (lit 1000000000000000000000000000000000000) in
        let x1 := neg (lit 447213595499957939281834733746255247) in
        let x2 := neg x1 in
        let x3 := neg x0 in
        let w0 := lit 166666666666666666666666666666666667 in
        let w1 := lit 833333333333333333333333333333333333 in
        let w2 := w1 in
        let w3 := w0 in
        Some ([x0; x1; x2; x3], [w0; w1; w2; w3])
    | 5 =>
        let x0 := neg (lit 1000000000000000000000000000000000000) in
        let x1 := neg (lit 654653670707977143798292456246858356) in
        let x2 := lit 0 in
        let x3 := neg x1 in
        let x4 := neg x0 in
        let w0 := lit 100000000000000000000000000000000000 in
        let w1 := lit 544444444444444444444444444444444444 in
        let w2 := lit 711111111111111111111111111111111111 in
        let w3 := w1 in
        let w4 := w0 in
        Some ([x0; x1; x2; x3; x4], [w0; w1; w2; w3; w4])
    | 6 =>
        let x0 := neg (lit 1000000000000000000000000000000000000) in
        let x1 := neg (lit 765055323929464692851002973959338150) in
        let x2 := neg (lit 285231516480645096314150994040879072) in
        let x3 := neg x2 in
        let x4 := neg x1 in
        let x5 := neg x0 in
        let w0 := lit 66666666666666666666666666666666667 in
        let w1 := lit 378474956297846980316612808212024652 in
        let w2 := lit 554858377035486353016720525121308681 in
        let w3 := w2 in
        let w4 := w1 in
        let w5 := w0 in
        Some ([x0; x1; x2; x3; x4; x5], [w0; w1; w2; w3; w4; w5])
    | 7 =>
        let x0 := neg (lit 1000000000000000000000000000000000000) in
        let x1 := neg (lit 830223896278566929872032213967465140) in
        let x2 := neg (lit 468848793470714213803771881908766329) in
        let x3 := lit 0 in
        let x4 := neg x2 in
        let x5 := neg x1 in
        let x6 := neg x0 in
        let w0 := lit 47619047619047619047619047619047619 in
        let w1 := lit 276826047361565948010700406290066293 in
        let w2 := lit 431745381209862623417871022281362278 in
        let w3 := lit 487619047619047619047619047619047619 in
        let w4 := w2 in
        let w5 := w1 in
        let w6 := w0 in
        Some ([x0; x1; x2; x3; x4; x5; x6], [w0; w1; w2; w3; w4; w5; w6])
    | 8 =>
        let x0 := neg (lit 1000000000000000000000000000000000000) in
        let x1 := neg (lit 871740148509606615337445761220663438) in
        let x2 := neg (lit 591700181433142302144510731397953190) in
        let x3 := neg (lit 209299217902478868768657260345351255) in
        let x4 := neg x3 in
        let x5 := neg x2 in
        let x6 := neg x1 in
        let x7 := neg x0 in
        let w0 := lit 35714285714285714285714285714285714 in
        let w1 := lit 210704227143506039382992065775756324 in
        let w2 := lit 341122692483504364764240677107748172 in
        let w3 := lit 412458794658703881567052971402209789 in
        let w4 := w3 in
        let w5 := w2 in
        let w6 := w1 in
        let w7 := w0 in
        Some ([x0; x1; x2; x3; x4; x5; x6; x7], [w0; w1; w2; w3; w4; w5; w6; w7])
    | 9 =>
        let x0 := neg (lit 1000000000000000000000000000000000000) in
        let x1 := neg (lit 899757995411460157312345244418337958) in
        let x2 := neg (lit 677186279510737753445885427091342451) in
        let x3 := neg (lit 363117463826178158710752068708659213) in
        let x4 := lit 0 in
        let x5 := neg x3 in
        let x6 := neg x2 in
        let x7 := neg x1 in
        let x8 := neg x0 in
        let w0 := lit 27777777777777777777777777777777778 in
        let w1 := lit 165495361560805525046339720029208306 in
        let w2 := lit 274538712500161735280705618579372726 in
        let w3 := lit 346428510973046345115131532139718288 in
        let w4 := lit 371519274376417233560090702947845805 in
        let w5 := w3 in
        let w6 := w2 in
        let w7 := w1 in
        let w8 := w0 in
        Some ([x0; x1; x2; x3; x4; x5; x6; x7; x8], [w0; w1; w2; w3; w4; w5; w6; w7; w8])
    | 10 =>
        let x0 := neg (lit 1000000000000000000000000000000000000) in
        let x1 := neg (lit 919533908166458813828932660822338134) in
        let x2 := neg (lit 738773865105505075003106174859830725) in
        let x3 := neg (lit 477924949810444495661175092731257998) in
        let x4 := neg (lit 165278957666387024626219765958173533) in
        let x5 := neg x4 in
        let x6 := neg x3 in
        let x7 := neg x2 in
        let x8 := neg x1 in
        let x9 := neg x0 in
        let w0 := lit 22222222222222222222222222222222222 in
        let w1 := lit 133305990851070111126227170755392898 in
        let w2 := lit 224889342063126452119457821731047843 in
        let w3 := lit 292042683679683757875582257374443892 in
        let w4 := lit 327539761183897456656510527916893145 in
        let w5 := w4 in
        let w6 := w3 in
        let w7 := w2 in
        let w8 := w1 in
        let w9 := w0 in
        Some ([x0; x1; x2; x3; x4; x5; x6; x7; x8; x9], [w0; w1; w2; w3; w4; w5; w6; w7; w8; w9])
    | _ => None
    end.
End Tables.

(** include/petiga.h:82-99 IGARuleType and struct _n_IGARule (reference count omitted). *)
Inductive rule_type := RLegendre | RLobatto | RReduced | RUser.
Definition rtype_eqb (a b : rule_type) : bool :=
  match a, b with
  | RLegendre, RLegendre | RLobatto, RLobatto | RReduced, RReduced | RUser, RUser => true
  | _, _ => false
  end.
Record rule := mk_rule {
  ru_type : rule_type; ru_nqp : Z; ru_point : option (list R); ru_weight : option (list R) }.

(** src/petigarule.c:11-20 IGARuleCreate: zeroed memory. *)
Definition rule_create : rule := mk_rule RLegendre 0 None None.

(** src/petigarule.c:37-47 IGARuleReset (the type is kept). *)
Definition rule_reset (r : rule) : rule := mk_rule (ru_type r) 0 None None.

Definition zeros (n : Z) : list R := map (fun _ => 0%R) (zseq 0 n).

Section Rule.
  (** Value stored for the constant Q(z / 10^36). *)
  Variable lit : Z -> R.

  (** src/petigarule.c:128-137 the switch on the type; [Some None] is ComputeRule failing. *)
  Definition compute_rule (t : rule_type) (n : Z) : option (option (list R * list R)) :=
    match t with
    | RLegendre => Some (gauss_legendre lit Ropp n)
    | RLobatto => Some (gauss_lobatto lit Ropp n)
    | RUser => None
    | RReduced => Some (gauss_legendre lit Ropp n)
    end.

  (** src/petigarule.c:118-143 IGARuleSetUp *)
  Definition rule_setup (r : rule) : status * rule :=
    if ru_nqp r <? 1 then (ErrOrder, r)
    else
      let X := match ru_point r with Some X => X | None => zeros (ru_nqp r) end in
      let W := match ru_weight r with Some W => W | None => zeros (ru_nqp r) end in
      match compute_rule (ru_type r) (ru_nqp r) with
      | None => (Ok, mk_rule (ru_type r) (ru_nqp r) (Some X) (Some W))
      | Some (Some (X', W')) => (Ok, mk_rule (ru_type r) (ru_nqp r) (Some X') (Some W'))
      | Some None => (ErrRange, mk_rule (ru_type r) (ru_nqp r) (Some X) (Some W))
      end.

  (** src/petigarule.c:89-98 IGARuleSetType *)
  Definition rule_set_type (t : rule_type) (r : rule) : status * rule :=
    if rtype_eqb (ru_type r) t then (Ok, r)
    else
      let r := mk_rule t (ru_nqp r) (ru_point r) (ru_weight r) in
      if 0 <? ru_nqp r then rule_setup r else (Ok, r).

  (** src/petigarule.c:100-113 IGARuleSetSize *)
  Definition rule_set_size (n : Z) (r : rule) : status * rule :=
    if n <? 1 then (ErrRange, r)
    else if ru_nqp r =? n then (Ok, r)
    else rule_setup (mk_rule (ru_type r) n None None).

  (** src/petigarule.c:145-157 IGARuleSetRule; [x], [w] are the caller's arrays. *)
  Definition rule_set_rule (q : Z) (x w : list R) (r : rule) : status * rule :=
    let r := mk_rule RUser (ru_nqp r) (ru_point r) (ru_weight r) in
    match rule_set_size q r with
    | (Ok, r) => (Ok, mk_rule (ru_type r) (ru_nqp r) (Some (firstn (Z.to_nat (ru_nqp r)) x))
                              (Some (firstn (Z.to_nat (ru_nqp r)) w)))
    | e => e
    end.

  (** src/petigarule.c:58-76 IGARuleCopy to another rule: the whole state. *)
  Definition rule_copy (base : rule) : rule :=
    mk_rule (ru_type base) (ru_nqp base)
            (if 0 <? ru_nqp base then ru_point base else None)
            (if 0 <? ru_nqp base then ru_weight base else None).

  Inductive rule_op :=
  | OpSetType (t : rule_type) | OpSetSize (n : Z) | OpSetUp | OpSetRule (q : Z) (x w : list R) | OpReset.
  Definition rule_step (op : rule_op) (r : rule) : status * rule :=
    match op with
    | OpSetType t => rule_set_type t r
    | OpSetSize n => rule_set_size n r
    | OpSetUp => rule_setup r
    | OpSetRule q x w => rule_set_rule q x w r
    | OpReset => (Ok, rule_reset r)
    end.
  (** A history of calls: the statuses returned and the final state. *)
  Fixpoint rule_run (ops : list rule_op) (r : rule) : list status * rule :=
    match ops with
    | [] => ([], r)
    | op :: ops => let '(s, r) := rule_step op r in let '(l, r) := rule_run ops r in (s :: l, r)
    end.

  (** include/petiga.h:122-148 struct _n_IGABasis, the tables of quadrature points; [bq_points] of an
      element and [bq_weights] have nqp entries. *)
  Record basis_q := mk_basis_q {
    bq_nel : Z; bq_nqp : Z; bq_nen : Z; bq_offset : Z -> Z; bq_detJac : Z -> R;
    bq_weight : Z -> list R; bq_point : Z -> list R }.

  (** src/petigabasis.c:110-121 the multiplicity check of the C^0 basis types. *)
  Fixpoint mult_ok (p m : Z) (U : Z -> R) (fuel : nat) (k : Z) : bool :=
    match fuel with
    | 0%nat => false
    | S f => if m <=? k then true
             else let j := next_knot_up (O:=Rord) m U k in
                  if j - k <? p then false else mult_ok p m U f j
    end.

  (** PETSC_MAX_REAL *)
  Variable maxreal : R.

  (** src/petigabasis.c:140-143, 157-160: one element with rule points X, weights W padded to nqp. *)
  Definition elem_points (U : Z -> R) (k : Z) (X : list R) (nqp : Z) : list R :=
    let u0 := U k in let J := ((U (k+1)%Z - u0) / 2)%R in
    map (fun x => (x + 1) * J + u0)%R X ++ map (fun _ => maxreal) (zseq 0 (nqp - Z.of_nat (length X))).
  Definition elem_weights (W : list R) (nqp : Z) : list R :=
    W ++ zeros (nqp - Z.of_nat (length W)).
  Definition elem_detJac (U : Z -> R) (k : Z) : R := ((U (k+1)%Z - U k) / 2)%R.

  Definition pts (o : option (list R)) : list R := match o with Some l => l | None => [] end.

  (** src/petigabasis.c:83-206 IGABasisInitQuadrature, without the basis function values
      (modelled in BasisModel).  Returns the status, the rule afterwards and the tables.  [bspline]:
      basis->type == IGA_BASIS_BSPLINE. *)
  Definition init_quadrature (bspline : bool) (p m : Z) (U : Z -> R) (spans : list Z) (r : rule)
    : status * rule * option basis_q :=
    let '(s, r) := if ru_nqp r <? 1 then rule_set_size (p+1) r else (Ok, r) in
    match s with
    | Ok =>
        if negb bspline && negb (mult_ok p m U (Z.to_nat (m+1)) 1) then (ErrRange, r, None)
        else
          let nel := Z.of_nat (length spans) in
          let nqp := ru_nqp r in
          let span := fun e => nth (Z.to_nat e) spans 0 in
          let off := fun e => span e - p in
          let dJ := fun e => elem_detJac U (span e) in
          if negb (rtype_eqb (ru_type r) RReduced) then
            (Ok, r, Some (mk_basis_q nel nqp (p+1) off dJ
                            (fun _ => pts (ru_weight r))
                            (fun e => elem_points U (span e) (pts (ru_point r)) nqp)))
          else
            let '(s2, r2) := if (2 <? nel) && (1 <? nqp) then rule_set_size (nqp-1) r else (Ok, r) in
            match s2 with
            | Ok =>
                let X := fun e => if (e =? 0) || (e =? nel-1) then pts (ru_point r) else pts (ru_point r2) in
                let W := fun e => if (e =? 0) || (e =? nel-1) then pts (ru_weight r) else pts (ru_weight r2) in
                (Ok, r2, Some (mk_basis_q nel nqp (p+1) off dJ
                                 (fun e => elem_weights (W e) nqp)
                                 (fun e => elem_points U (span e) (X e) nqp)))
            | e => (e, r2, None)
            end
    | e => (e, r, None)
    end.
End Rule.
