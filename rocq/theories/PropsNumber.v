(* Property theorems for log and pow: C91. *)

From Coq Require Import List String Bool ZArith Lia.
From Verif Require Import Base CtyModel CtySpec CtyProofs PropsCty FuncModel FuncProofs NumberModel.
Import ListNotations.
Local Open Scope string_scope.
Local Open Scope Z_scope.

(* ----- the specification ----- *)

(* Numbers that a float64 can be *)
Definition float64_number (x : number) : Prop := match x with Fin _ d => representable float64 d | Inf _ => True end.
Definition negative (x : number) : Prop := match x with Fin _ d => num d < 0 | Inf n => n = true end.
Definition is_zero (x : number) : Prop := match x with Fin _ d => num d = 0 | Inf _ => False end.
Definition is_one (x : number) : Prop := match x with Fin _ d => num d = pow2 (den d) | Inf _ => False end.
Definition is_infinite (x : number) : Prop := match x with Fin _ _ => False | Inf n => n = false end.
Definition below_one (x : number) : Prop := match x with Fin _ d => 0 < num d < pow2 (den d) | Inf _ => False end.
Definition above_one (x : number) : Prop := match x with Fin _ d => pow2 (den d) < num d | Inf _ => False end.
Definition fraction (x : number) : Prop := match x with Fin _ d => ~ whole d | Inf _ => False end.

Definition as_float (x : number) : float := match x with Fin _ d => FFin d | Inf n => FInf n end.
Definition number_arg (ms : list mark) (x : number) : value := Val ms (SNum x) [].
Definition is_number (r : result value) (P : number -> Prop) (ms : list mark) : Prop :=
  exists v x, r = Ok v /\ shape_of v = SNum x /\ P x /\ forall m, In m (marks_of v) <-> In m ms.

(* What is said of math.Log: where it has no value, where it is infinite, and its sign. *)
Record logarithm (mlog : float -> float) : Prop :=
  { l_negative : forall x, negative x -> mlog (as_float x) = FNaN;
    l_zero : forall x, is_zero x -> mlog (as_float x) = FInf true;
    l_infinite : forall x, is_infinite x -> mlog (as_float x) = FInf false;
    l_one : forall x, is_one x -> exists d, mlog (as_float x) = FFin d /\ num d = 0;
    l_below : forall x, below_one x -> exists d, mlog (as_float x) = FFin d /\ num d < 0;
    l_above : forall x, above_one x -> exists d, mlog (as_float x) = FFin d /\ 0 < num d }.
(* Of the quotient of two numbers other than 0: there is one, and it is 1 if they are equal. *)
Record division (quotient : dyadic -> dyadic -> float) : Prop :=
  { q_some : forall a b, num a <> 0 -> num b <> 0 -> quotient a b <> FNaN;
    q_same : forall a, num a <> 0 -> exists d, quotient a a = FFin d /\ num d = pow2 (den d) }.
(* Of math.Pow: where it has no value, and the powers 0 and of 0. *)
Record power (mpow : float -> float -> float) : Prop :=
  { p_none : forall x y, mpow (as_float x) (as_float y) = FNaN <-> negative x /\ (forall n, x <> Inf n) /\ fraction y;
    p_zero : forall x y, is_zero y -> exists d, mpow (as_float x) (as_float y) = FFin d /\ num d = pow2 (den d);
    p_of_zero : forall x y, is_zero x -> negative y -> exists n, mpow (as_float x) (as_float y) = FInf n }.

(* ----- proofs ----- *)

Definition both (ms ms' : list mark) (m : mark) : Prop := In m ms \/ In m ms'.

Lemma to_float_number : forall ms x, float64_number x -> to_float (number_arg ms x) = Ok (as_float x).
Proof.
  intros ms [p d|n] H; [|reflexivity]. cbn. unfold from_float64. rewrite (round_to_exact float64 d good64 H). reflexivity.
Qed.
Lemma call_two : forall early f ms ms' x y op,
  f_params f = [plain_param numt; plain_param numt] -> f_var f = None -> (forall vs, f_type f vs = Ok numt) ->
  (forall vs t, f_impl f vs t = match vs with [v; w] => do a <- to_float v; do b <- to_float w; float_val (op a b) | _ => bad_args end) ->
  float64_number x -> float64_number y ->
  call early f [number_arg ms x; number_arg ms' y] =
    do r <- no_panic (float_val (op (as_float x) (as_float y)));
    Ok (with_marks (flat_map taken_marks [(plain_param numt, number_arg ms x); (plain_param numt, number_arg ms' y)]) r).
Proof.
  intros early f ms ms' x y op P V T I X Y. unfold call. rewrite P, V. cbn [pair_args].
  change (check_args [(plain_param numt, number_arg ms x); (plain_param numt, number_arg ms' y)]) with (@Ok bool false).
  cbn [bindr]. rewrite T. cbn [no_panic bindr].
  change (existsb unknown_arg [(plain_param numt, number_arg ms x); (plain_param numt, number_arg ms' y)]) with false.
  cbv iota. rewrite I. change (map seen [(plain_param numt, number_arg ms x); (plain_param numt, number_arg ms' y)]) with [number_arg [] x; number_arg [] y].
  cbv iota. rewrite (to_float_number [] x X), (to_float_number [] y Y). reflexivity.
Qed.
Lemma two_marks : forall ms ms' x y v m,
  In m (marks_of (with_marks (flat_map taken_marks [(plain_param numt, number_arg ms x); (plain_param numt, number_arg ms' y)]) v)) <->
  In m (marks_of v) \/ In m ms \/ In m ms'.
Proof. intros. rewrite marks_with. cbn. rewrite !app_nil_r, in_app_iff. tauto. Qed.

Lemma classes : forall x, negative x \/ is_zero x \/ is_one x \/ is_infinite x \/ below_one x \/ above_one x.
Proof.
  intros [p d|[]]; cbn [negative is_zero is_one is_infinite below_one above_one]; try tauto.
  assert (P := pow2_pos (den d)). lia.
Qed.
Lemma classes_apart : forall x,
  (negative x -> ~ is_zero x /\ ~ is_one x /\ ~ is_infinite x) /\
  (below_one x \/ above_one x -> ~ negative x /\ ~ is_zero x /\ ~ is_one x /\ ~ is_infinite x) /\
  (is_one x -> ~ negative x /\ ~ is_zero x /\ ~ is_infinite x) /\
  (is_zero x -> ~ negative x /\ ~ is_infinite x) /\
  (is_infinite x -> ~ negative x).
Proof.
  intros [p d|[]]; cbn [negative is_zero is_one is_infinite below_one above_one]; try (repeat split; intros; try tauto; congruence).
  assert (P := pow2_pos (den d)). repeat split; try lia; try tauto; intuition lia.
Qed.

(* the logarithm of every number *)
Lemma log_class : forall mlog, logarithm mlog -> forall x,
  (negative x /\ mlog (as_float x) = FNaN) \/
  ((is_zero x \/ is_infinite x) /\ exists n, mlog (as_float x) = FInf n /\ (n = true <-> is_zero x)) \/
  (is_one x /\ exists d, mlog (as_float x) = FFin d /\ num d = 0) \/
  ((below_one x \/ above_one x) /\ exists d, mlog (as_float x) = FFin d /\ num d <> 0 /\ (num d < 0 <-> below_one x)).
Proof.
  intros mlog L x. destruct (classes x) as [C|[C|[C|[C|[C|C]]]]].
  - left. split; [exact C|]. exact (l_negative _ L x C).
  - right; left. split; [left; exact C|]. exists true. split; [exact (l_zero _ L x C)|tauto].
  - right; right; left. split; [exact C|]. exact (l_one _ L x C).
  - right; left. split; [right; exact C|]. exists false. split; [exact (l_infinite _ L x C)|]. split; [discriminate|].
    destruct x as [p d|[]]; cbn in C |- *; [contradiction|discriminate|contradiction].
  - right; right; right. split; [left; exact C|]. destruct (l_below _ L x C) as (d & E & S). exists d. repeat split; [exact E|lia|tauto|tauto].
  - right; right; right. split; [right; exact C|]. destruct (l_above _ L x C) as (d & E & S). exists d. repeat split; [exact E|lia|lia|].
    destruct x as [p e|]; cbn in *; lia.
Qed.

Definition no_log (x b : number) : Prop :=
  negative x \/ negative b \/ ((is_zero x \/ is_infinite x) /\ (is_zero b \/ is_infinite b)) \/ (is_one x /\ is_one b).

Lemma float_zero_iff : forall d, float_zero d = true <-> num d = 0.
Proof. intro d. unfold float_zero. apply Z.eqb_eq. Qed.
Lemma float_zero_not : forall d, float_zero d = false <-> num d <> 0.
Proof. intro d. unfold float_zero. apply Z.eqb_neq. Qed.

Lemma no_log_iff : forall mlog quotient, logarithm mlog -> division quotient -> forall x b,
  float_div quotient (mlog (as_float x)) (mlog (as_float b)) = FNaN <-> no_log x b.
Proof.
  intros mlog quotient L Q x b. unfold no_log.
  destruct (classes_apart x) as (X1 & X2 & X3 & X4 & X5). destruct (classes_apart b) as (B1 & B2 & B3 & B4 & B5).
  destruct (log_class _ L x) as [(C & E)|[(C & n & E & _)|[(C & d & E & Z)|(C & d & E & Z & _)]]]; rewrite E.
  - split; [tauto|reflexivity].
  - destruct (log_class _ L b) as [(D & F)|[(D & n' & F & _)|[(D & d' & F & Z')|(D & d' & F & Z' & _)]]]; rewrite F; cbn [float_div];
      split; intro H; first [reflexivity|discriminate|tauto|exfalso; tauto].
  - destruct (log_class _ L b) as [(D & F)|[(D & n' & F & _)|[(D & d' & F & Z')|(D & d' & F & Z' & _)]]]; rewrite F; cbn [float_div].
    + split; [tauto|reflexivity].
    + split; [discriminate|intro; exfalso; tauto].
    + rewrite (proj2 (float_zero_iff d') Z'), (proj2 (float_zero_iff d) Z). split; [tauto|reflexivity].
    + rewrite (proj2 (float_zero_not d') Z'), (proj2 (float_zero_iff d) Z). split; [discriminate|intro; exfalso; tauto].
  - destruct (log_class _ L b) as [(D & F)|[(D & n' & F & _)|[(D & d' & F & Z')|(D & d' & F & Z' & _)]]]; rewrite F; cbn [float_div].
    + split; [tauto|reflexivity].
    + split; [discriminate|intro; exfalso; tauto].
    + rewrite (proj2 (float_zero_iff d') Z'), (proj2 (float_zero_not d) Z). split; [discriminate|intro; exfalso; tauto].
    + rewrite (proj2 (float_zero_not d') Z'), (proj2 (float_zero_not d) Z). split; [intro H; destruct (q_some _ Q d d' Z Z' H)|intro; exfalso; tauto].
Qed.

Lemma log_call : forall mlog quotient early ms ms' x b, float64_number x -> float64_number b ->
  call early (log_func mlog quotient) [number_arg ms x; number_arg ms' b] =
    do r <- no_panic (float_val (float_div quotient (mlog (as_float x)) (mlog (as_float b))));
    Ok (with_marks (flat_map taken_marks [(plain_param numt, number_arg ms x); (plain_param numt, number_arg ms' b)]) r).
Proof.
  intros. apply (call_two early (log_func mlog quotient) ms ms' x b (fun p q => float_div quotient (mlog p) (mlog q))); try reflexivity; assumption.
Qed.
Lemma pow_call : forall mpow early ms ms' x b, float64_number x -> float64_number b ->
  call early (pow_func mpow) [number_arg ms x; number_arg ms' b] =
    do r <- no_panic (float_val (mpow (as_float x) (as_float b)));
    Ok (with_marks (flat_map taken_marks [(plain_param numt, number_arg ms x); (plain_param numt, number_arg ms' b)]) r).
Proof. intros. apply (call_two early (pow_func mpow) ms ms' x b mpow); try reflexivity; assumption. Qed.

Lemma finite_result : forall d (P : number -> Prop) ms ms' x b, P (Fin 53 d) ->
  is_number (do r <- no_panic (float_val (FFin d));
    Ok (with_marks (flat_map taken_marks [(plain_param numt, number_arg ms x); (plain_param numt, number_arg ms' b)]) r)) P (ms ++ ms').
Proof.
  intros. cbn [float_val no_panic bindr]. eexists _, (Fin 53 d). split; [reflexivity|]. split; [reflexivity|]. split; [assumption|].
  intro m. rewrite two_marks, in_app_iff. cbn. tauto.
Qed.
Lemma infinite_result : forall n (P : number -> Prop) ms ms' x b, P (Inf n) ->
  is_number (do r <- no_panic (float_val (FInf n));
    Ok (with_marks (flat_map taken_marks [(plain_param numt, number_arg ms x); (plain_param numt, number_arg ms' b)]) r)) P (ms ++ ms').
Proof.
  intros. cbn [float_val no_panic bindr]. eexists _, (Inf n). split; [reflexivity|]. split; [reflexivity|]. split; [assumption|].
  intro m. rewrite two_marks, in_app_iff. cbn. tauto.
Qed.

(* ----- the theorems ----- *)

(* The logarithm is refused exactly where there is none: of negative numbers and to negative bases,
   where both logarithms are infinite, and of 1 to the base 1. *)
Theorem C91_log_refused : forall mlog quotient early ms ms' x b, logarithm mlog -> division quotient ->
  float64_number x -> float64_number b ->
  let r := call early (log_func mlog quotient) [number_arg ms x; number_arg ms' b] in
  ((exists e, r = Err e) <-> no_log x b) /\ (~ no_log x b -> is_number r (fun _ => True) (ms ++ ms')).
Proof.
  intros mlog quotient early ms ms' x b L Q X B r. unfold r. rewrite log_call by assumption.
  rewrite <- (no_log_iff mlog quotient L Q x b). destruct (float_div quotient (mlog (as_float x)) (mlog (as_float b))) as [d|n|] eqn:E.
  - split; [split; [intros (e & H); discriminate|discriminate]|]. intros _. apply finite_result. exact Logic.I.
  - split; [split; [intros (e & H); discriminate|discriminate]|]. intros _. apply infinite_result. exact Logic.I.
  - split; [split; [reflexivity|intros _; eexists; reflexivity]|]. intro H. destruct (H eq_refl).
Qed.
Print Assumptions C91_log_refused.

(* The logarithm of a number to itself is 1, of 1 to any other base 0. *)
Theorem C91_log_values : forall mlog quotient early ms ms' x b, logarithm mlog -> division quotient ->
  float64_number x -> float64_number b ->
  (below_one x \/ above_one x -> is_number (call early (log_func mlog quotient) [number_arg ms x; number_arg ms' x]) is_one (ms ++ ms')) /\
  (is_one x -> ~ negative b -> ~ is_one b -> is_number (call early (log_func mlog quotient) [number_arg ms x; number_arg ms' b]) is_zero (ms ++ ms')).
Proof.
  intros mlog quotient early ms ms' x b L Q X B. split.
  - intro C. rewrite log_call by assumption. destruct (classes_apart x) as (_ & A & _). destruct (A C) as (A1 & A2 & A3 & A4).
    destruct (log_class _ L x) as [(D & E)|[(D & n & E & _)|[(D & d & E & Z)|(D & d & E & Z & _)]]]; try (exfalso; tauto).
    rewrite E. cbn [float_div]. rewrite (proj2 (float_zero_not d) Z). destruct (q_same _ Q d Z) as (o & -> & O). apply finite_result. exact O.
  - intros C N O. rewrite log_call by assumption. destruct (l_one _ L x C) as (d & E & Z). rewrite E.
    destruct (log_class _ L b) as [(D & F)|[(D & n' & F & _)|[(D & d' & F & Z')|(D & d' & F & Z' & _)]]]; try (exfalso; tauto); rewrite F; cbn [float_div].
    + apply finite_result. reflexivity.
    + rewrite (proj2 (float_zero_not d') Z'), (proj2 (float_zero_iff d) Z). apply finite_result. reflexivity.
Qed.
Print Assumptions C91_log_values.

(* The base 1, and the number 0, give an infinity, not an error. *)
Theorem C91_log_infinite : forall mlog quotient early ms ms' x b, logarithm mlog -> division quotient ->
  float64_number x -> float64_number b ->
  (is_one b -> ~ negative x -> ~ is_one x -> is_number (call early (log_func mlog quotient) [number_arg ms x; number_arg ms' b])
     (fun r => exists n, r = Inf n /\ (n = true <-> is_zero x \/ below_one x)) (ms ++ ms')) /\
  (is_zero x -> below_one b \/ above_one b -> is_number (call early (log_func mlog quotient) [number_arg ms x; number_arg ms' b])
     (fun r => exists n, r = Inf n /\ (n = true <-> above_one b)) (ms ++ ms')).
Proof.
  intros mlog quotient early ms ms' x b L Q X B. split.
  - intros C N O. rewrite log_call by assumption. destruct (l_one _ L b C) as (d & E & Z). rewrite E.
    destruct (log_class _ L x) as [(D & F)|[(D & n' & F & S)|[(D & d' & F & Z')|(D & d' & F & Z' & S)]]]; try (exfalso; tauto); rewrite F; cbn [float_div].
    + apply infinite_result. eexists. split; [reflexivity|]. unfold float_neg. rewrite Z. cbn [Z.ltb Z.compare]. rewrite xorb_false_r, S.
      split; [tauto|]. intros [H|H]; [exact H|]. destruct (classes_apart x) as (_ & A & _). destruct (A (or_introl H)). tauto.
    + rewrite (proj2 (float_zero_iff d) Z), (proj2 (float_zero_not d') Z'). apply infinite_result. eexists. split; [reflexivity|].
      unfold float_neg. rewrite Z.ltb_lt, S. split; [tauto|]. intros [H|H]; [|exact H]. destruct (classes_apart x) as (_ & A & _). destruct (A D). tauto.
  - intros C O. rewrite log_call by assumption. rewrite (l_zero _ L x C).
    destruct (classes_apart b) as (_ & A & _). destruct (A O) as (A1 & A2 & A3 & A4).
    destruct (log_class _ L b) as [(D & F)|[(D & n' & F & S)|[(D & d' & F & Z')|(D & d' & F & Z' & S)]]]; try (exfalso; tauto); rewrite F; cbn [float_div].
    apply infinite_result. eexists. split; [reflexivity|]. unfold float_neg. rewrite xorb_true_l, negb_true_iff, Z.ltb_ge.
    destruct O as [O|O].
    + apply S in O as O'. split; intro; [lia|]. destruct b as [p e|]; cbn in *; lia.
    + split; [tauto|]. intros _. destruct (Z.lt_ge_cases (num d') 0) as [H|H]; [|exact H]. apply S in H. destruct b as [p e|]; cbn in *; lia.
Qed.
Print Assumptions C91_log_infinite.

(* A power is refused exactly where it is no number: a fraction as power of a negative number. *)
Theorem C91_pow_refused : forall mpow early ms ms' x y, power mpow -> float64_number x -> float64_number y ->
  let r := call early (pow_func mpow) [number_arg ms x; number_arg ms' y] in
  ((exists e, r = Err e) <-> negative x /\ (forall n, x <> Inf n) /\ fraction y) /\
  (~ (negative x /\ (forall n, x <> Inf n) /\ fraction y) -> is_number r (fun _ => True) (ms ++ ms')) /\
  (is_zero y -> is_number r is_one (ms ++ ms')) /\
  (is_zero x -> negative y -> is_number r (fun z => exists n, z = Inf n) (ms ++ ms')).
Proof.
  intros mpow early ms ms' x y M X Y r. unfold r. rewrite pow_call by assumption. rewrite <- (p_none _ M x y).
  split; [|split; [|split]].
  - destruct (mpow (as_float x) (as_float y)) as [d|n|] eqn:E.
    + split; [intros (e & H); discriminate|discriminate].
    + split; [intros (e & H); discriminate|discriminate].
    + split; [reflexivity|intros _; eexists; reflexivity].
  - intro N. destruct (mpow (as_float x) (as_float y)) as [d|n|] eqn:E.
    + apply finite_result. exact Logic.I.
    + apply infinite_result. exact Logic.I.
    + destruct (N eq_refl).
  - intro Z. destruct (p_zero _ M x y Z) as (d & E & O). rewrite E. apply finite_result. exact O.
  - intros Z N. destruct (p_of_zero _ M x y Z N) as (n & E). rewrite E. apply infinite_result. eauto.
Qed.
Print Assumptions C91_pow_refused.

(* Numbers go through float64: a number of more than 53 bits loses digits even as a power of itself. *)
Theorem C91_digits_refuted : exists x,
  whole (mkD x 0) /\ forall mpow early, (forall a, mpow a (FFin (mkD 1 0)) = a) ->
  exists y, call early (pow_func mpow) [number_arg [] (int_val x); number_arg [] (int_val 1)] = Ok (num_val y) /\
    forall p, y <> Fin p (mkD x 0).
Proof.
  exists 9007199254740993. split; [exists 9007199254740993; reflexivity|]. intros mpow early One.
  exists (Fin 53 (mkD 9007199254740992 0)). split; [|intros p H; discriminate H].
  unfold call, pow_func. cbn [f_params f_var pair_args f_type f_impl].
  assert (E : to_float (number_arg [] (int_val 9007199254740993)) = Ok (FFin (mkD 9007199254740992 0))) by (vm_compute; reflexivity).
  assert (F : to_float (number_arg [] (int_val 1)) = Ok (FFin (mkD 1 0))) by (vm_compute; reflexivity).
  change (map seen _) with [number_arg [] (int_val 9007199254740993); number_arg [] (int_val 1)].
  change (check_args _) with (@Ok bool false). cbn [bindr static no_panic]. change (existsb _ _) with false. cbv iota beta.
  rewrite E. cbn [bindr]. rewrite F. cbn [bindr]. rewrite One. reflexivity.
Qed.
Print Assumptions C91_digits_refuted.

(* Numbers beyond float64 are refused. *)
Theorem C91_too_large : forall mlog quotient mpow early ms ms' p d y,
  2 ^ 1024 * pow2 (den d) <= Z.abs (num d) -> float64_number y ->
  (exists e, call early (log_func mlog quotient) [number_arg ms (Fin p d); number_arg ms' y] = Err e) /\
  (exists e, call early (log_func mlog quotient) [number_arg ms y; number_arg ms' (Fin p d)] = Err e) /\
  (exists e, call early (pow_func mpow) [number_arg ms (Fin p d); number_arg ms' y] = Err e) /\
  (exists e, call early (pow_func mpow) [number_arg ms y; number_arg ms' (Fin p d)] = Err e).
Proof.
  intros mlog quotient mpow early ms ms' p d y Big Y.
  assert (E : forall m, exists e, to_float (number_arg m (Fin p d)) = Err e).
  { intro m. cbn. unfold from_float64. rewrite (round_too_large d Big). cbn. eauto. }
  destruct (E []) as (e & E0). assert (F := to_float_number [] y Y).
  repeat split; exists e; unfold call, log_func, pow_func; cbn [f_params f_var pair_args f_type f_impl];
    change (check_args _) with (@Ok bool false); cbn [bindr static no_panic];
    change (existsb _ _) with false; cbv iota beta; cbn [map seen fst snd plain_param p_marked number_arg unmark_deep];
    fold (number_arg [] y); fold (number_arg [] (Fin p d)); rewrite ?F; cbn [bindr]; rewrite E0; reflexivity.
Qed.
Print Assumptions C91_too_large.

(* A logarithm, a division and a power as they are described above: what they say of the sign, and
   nothing else. *)
Definition some_log (x : float) : float :=
  match x with
  | FFin d => if num d <? 0 then FNaN else if num d =? 0 then FInf true else FFin (mkD (num d - pow2 (den d)) (den d))
  | FInf n => if n then FNaN else FInf false
  | FNaN => FNaN
  end.
Definition some_quotient (a b : dyadic) : float := FFin (mkD 1 0).
Definition whole_b (d : dyadic) : bool := num d mod pow2 (den d) =? 0.
Definition some_pow (x y : float) : float :=
  match x, y with
  | FFin a, FFin b => if num b =? 0 then FFin (mkD 1 0) else if (num a <? 0) && negb (whole_b b) then FNaN
                      else if (num a =? 0) && (num b <? 0) then FInf false else x
  | FFin a, FInf n => if n && (num a =? 0) then FInf false else x
  | _, FFin b => if num b =? 0 then FFin (mkD 1 0) else FInf false
  | _, _ => FInf false
  end.
Example C91_sample : logarithm some_log /\ division some_quotient /\ power some_pow /\
  no_log (int_val (-8)) (int_val 2) /\ ~ no_log (int_val 8) (int_val 2) /\ no_log (int_val 1) (int_val 1) /\
  call (fun _ => []) (log_func some_log some_quotient) [number_arg [] (int_val 8); number_arg ["Sensitive"] (int_val 1)] = Ok (Val ["Sensitive"] (SNum (Inf false)) []) /\
  (exists e, call (fun _ => []) (log_func some_log some_quotient) [number_arg [] (int_val (-8)); number_arg [] (int_val 2)] = Err e) /\
  (exists e, call (fun _ => []) (pow_func some_pow) [number_arg [] (int_val (-8)); number_arg [] (Fin 64 (mkD 1 1))] = Err e).
Proof.
  split; [|split; [|split]].
  - constructor; intros [p d|n] H; cbn in *; try contradiction; try (subst n; reflexivity).
    + replace (num d <? 0) with true by lia. reflexivity.
    + rewrite H. reflexivity.
    + assert (P := pow2_pos (den d)). replace (num d <? 0) with false by lia. replace (num d =? 0) with false by lia. eexists. split; [reflexivity|]. cbn. lia.
    + replace (num d <? 0) with false by lia. replace (num d =? 0) with false by lia. eexists. split; [reflexivity|]. cbn. lia.
    + assert (P := pow2_pos (den d)). replace (num d <? 0) with false by lia. replace (num d =? 0) with false by lia. eexists. split; [reflexivity|]. cbn. lia.
  - constructor; [discriminate|]. intros. eexists. split; reflexivity.
  - assert (W : forall d, whole_b d = true <-> whole d).
    { intro d. unfold whole_b, whole, is_whole. assert (P := pow2_pos (den d)). fold (pow2 (den d)). rewrite Z.eqb_eq. split.
      - intro H. apply Z.mod_divide in H; [|lia]. exact H.
      - intros (z & ->). apply Z.mod_mul. lia. }
    constructor.
    + intros [p a|n] [q b|k]; cbn; try (split; [discriminate|intros (H & N & F)]).
      * destruct (num b =? 0) eqn:B.
        { split; [discriminate|]. intros (_ & _ & F). destruct F. exists 0. unfold is_whole. lia. }
        destruct (num a <? 0) eqn:A; cbn [andb].
        { destruct (whole_b b) eqn:E; cbn [negb].
          - replace (num a =? 0) with false by lia. cbn [andb]. split; [discriminate|]. intros (_ & _ & F). destruct F. apply W. exact E.
          - split; [|reflexivity]. intros _. split; [lia|]. split; [discriminate|]. intro F. apply W in F. congruence. }
        destruct ((num a =? 0) && _); split; try discriminate; intros (H & _ & _); lia.
      * destruct (k && _); split; try discriminate; tauto.
      * destruct (num b =? 0); split; try discriminate; intros (_ & N & _); destruct (N n eq_refl).
      * contradiction.
    + intros [p a|n] [q b|k] H; cbn in *; try contradiction; rewrite H; eexists; split; reflexivity.
    + intros [p a|n] [q b|k] Z N; cbn in *; try contradiction.
      * replace (num b =? 0) with false by lia. replace (num a <? 0) with false by lia. cbn [andb].
        replace (num a =? 0) with true by lia. replace (num b <? 0) with true by lia. eexists. reflexivity.
      * subst k. replace (num a =? 0) with true by lia. eexists. reflexivity.
  - split; [left; reflexivity|]. split; [vm_compute; intuition discriminate|]. split; [right; right; right; split; reflexivity|].
    split; [vm_compute; reflexivity|]. split; (eexists; vm_compute; reflexivity).
Qed.
