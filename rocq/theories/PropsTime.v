(* The properties of timecmp and timeadd. *)

From Verif Require Import Base CtyModel FuncModel FuncSpec FuncProofs TimeModel TimeSpec TimeProofs TimeAdd TimeLoose.
From Coq Require Import NArith ZArith Lia.
Local Open Scope Z_scope.

(* ----- C72: timecmp ----- *)

(* Every date has one number. *)
Theorem C72_calendar : forall a, is_date a -> 0 <= year a -> exists n, day_number a n /\ forall n', day_number a n' -> n' = n.
Proof. intros a D Y. exists (number a). split; [apply day_number_exists; assumption|]. intros n' H. apply number_spec in H. tauto. Qed.
Print Assumptions C72_calendar.
(* A text says one instant at most. *)
Theorem C72_one_meaning : forall t n n', says t n -> says t n' -> n = n'.
Proof. intros t n n' H H'. apply says_iff in H, H'. destruct H as (s & k & o & P & ->), H' as (s' & k' & o' & P' & ->). congruence. Qed.
Print Assumptions C72_one_meaning.

Lemma compare_sgn : forall s n l s' n' l', 0 <= n < 1000000000 -> 0 <= n' < 1000000000 ->
  (if time_equal (Time s n l) (Time s' n' l') then Ok (num_val (int_val 0))
   else if time_before (Time s n l) (Time s' n' l') then Ok (num_val (int_val (-1))) else Ok (num_val (int_val 1)))
  = Ok (num_val (int_val (Z.sgn (1000000000 * s + n - (1000000000 * s' + n'))))).
Proof.
  intros s n l s' n' l' B B'. unfold time_equal, time_before. cbn [t_sec t_nsec].
  destruct (Z.eqb_spec s s'), (Z.eqb_spec n n'), (Z.ltb_spec s s'), (Z.ltb_spec n n'); try lia; cbn [andb orb]; do 3 f_equal; symmetry;
    try (apply Z.sgn_null; lia); try (apply Z.sgn_neg; lia); try (apply Z.sgn_pos; lia).
Qed.
Lemma strict_time : forall t x, parse_rfc3339 t = Some x -> time_parse t = inl x.
Proof. intros t x P. unfold time_parse. rewrite P. reflexivity. Qed.
Lemma parsed_reads : forall t s k o, time_parse t = inl (s, k, o) -> exists ns z, reads t ns z.
Proof.
  intros t s k o P. assert (Z : exists z, zone_offset o = 60 * z).
  { assert (Q := P). rewrite time_parse_loose in Q. assert (R := parse_run t). destruct (run rfc3339 t) as [[vs r]|e]; [|congruence].
    destruct R as (y & m & d & h & mi & sec & f & z & o' & _ & Z & R). rewrite Q in R. unfold finish in R.
    destruct (negb _); [discriminate|]. destruct (_ || _)%bool; [discriminate|]. exists z. assert (o = o') by congruence. subst. exact Z. }
  destruct Z as [z Z]. exists (1000000000 * s + k), z. apply reads_iff. exists s, k, o. auto.
Qed.
Lemma error_prefix : forall quoted e, exists msg, timestamp_error quoted e = "not a valid RFC3339 timestamp" +++ msg.
Proof. intros. eexists. reflexivity. Qed.
(* The result is the sign of the difference of the instants, to the nanosecond. *)
Theorem C72_compare : forall local quoted early ms ms' a b na nb, says a na -> says b nb -> exists r,
  call early (timecmp_func local quoted) [Val ms (SStr a) []; Val ms' (SStr b) []] = Ok r /\
  shape_of r = SNum (int_val (Z.sgn (na - nb))) /\ forall m, In m (marks_of r) <-> In m ms \/ In m ms'.
Proof.
  intros local quoted early ms ms' a b na nb A B. apply says_iff in A, B. destruct A as (sa & ka & oa & A & ->), B as (sb & kb & ob & B & ->).
  eexists. split; [|split].
  - unfold call, timecmp_func. cbn -[time_parse parse_timestamp time_equal time_before with_marks flat_map num_val int_val].
    unfold parse_timestamp. rewrite (strict_time _ _ A), (strict_time _ _ B). cbn [bindr]. rewrite (compare_sgn _ _ _ _ _ _ (fraction_bound _ _ _ _ A) (fraction_bound _ _ _ _ B)). reflexivity.
  - reflexivity.
  - intro m. rewrite marks_with. cbn. rewrite !app_nil_r, in_app_iff. tauto.
Qed.
Print Assumptions C72_compare.
(* With at most nine digits in the fractions nothing is left out. *)
Theorem C72_exact : forall local quoted early ms ms' a b na nb ka kb, says_exactly a na ka -> says_exactly b nb kb -> (ka <= 9)%nat -> (kb <= 9)%nat -> exists r,
  call early (timecmp_func local quoted) [Val ms (SStr a) []; Val ms' (SStr b) []] = Ok r /\
  shape_of r = SNum (int_val (Z.sgn (na * 10 ^ Z.of_nat kb - nb * 10 ^ Z.of_nat ka))).
Proof.
  assert (X : forall t n k, says_exactly t n k -> (k <= 9)%nat -> exists ns, says t ns /\ ns * 10 ^ Z.of_nat k = 1000000000 * n).
  { intros t n k (a & secs & f & z & d & T & D & -> & ->) L. eexists. split; [exists a, secs, f, z, d; split; [exact T|split; [exact D|reflexivity]]|].
    unfold billionths. set (q := 10 ^ Z.of_nat (List.length f)). set (p := 10 ^ (9 - Z.of_nat (List.length f))).
    assert (E : 1000000000 = p * q) by (unfold p, q; rewrite <- Z.pow_add_r by lia; replace (9 - _ + _) with 9 by lia; reflexivity).
    assert (Q : 0 < q) by (apply Z.pow_pos_nonneg; lia). rewrite E, Z.mul_assoc, Z.div_mul by lia. lia. }
  intros local quoted early ms ms' a b na nb ka kb A B La Lb. destruct (X _ _ _ A La) as (xa & Sa & Ea), (X _ _ _ B Lb) as (xb & Sb & Eb).
  destruct (C72_compare local quoted early ms ms' a b xa xb Sa Sb) as (r & E & S & _). exists r. split; [exact E|]. rewrite S. do 2 f_equal.
  assert (Qa : 0 < 10 ^ Z.of_nat ka) by (apply Z.pow_pos_nonneg; lia). assert (Qb : 0 < 10 ^ Z.of_nat kb) by (apply Z.pow_pos_nonneg; lia).
  set (qa := 10 ^ Z.of_nat ka) in *. set (qb := 10 ^ Z.of_nat kb) in *.
  assert (M : 1000000000 * (na * qb - nb * qa) = (xa - xb) * (qa * qb)) by nia.
  assert (G := f_equal Z.sgn M). rewrite !Z.sgn_mul, (Z.sgn_pos qa Qa), (Z.sgn_pos qb Qb) in G. cbn [Z.sgn] in G. lia.
Qed.
Print Assumptions C72_exact.

(* Nothing is compared but what is read. *)
Theorem C72_only : forall local quoted early ms ms' a b r,
  call early (timecmp_func local quoted) [Val ms (SStr a) []; Val ms' (SStr b) []] = Ok r -> (exists n z, reads a n z) /\ exists n z, reads b n z.
Proof.
  intros local quoted early ms ms' a b r H. unfold call, timecmp_func in H.
  cbn -[time_parse parse_timestamp time_equal time_before with_marks flat_map num_val int_val] in H. unfold parse_timestamp in H.
  destruct (time_parse a) as [[[sa na] oa]|] eqn:A; [|discriminate]. destruct (time_parse b) as [[[sb nb] ob]|] eqn:B; [|discriminate].
  split; [apply parsed_reads in A|apply parsed_reads in B]; assumption.
Qed.
Print Assumptions C72_only.

Example C72_sample : forall local quoted, map (fun p => call (fun _ => []) (timecmp_func local quoted) [plain (SStr (fst p)); plain (SStr (snd p))])
    [("2024-02-29T06:00:00+02:00", "2024-02-29T04:00:00Z"); ("2023-12-31T23:59:59.5Z", "2024-01-01T00:00:00Z"); ("2024-03-01T00:30:00+01:00", "2024-02-29T23:00:00Z")]
  = [Ok (num_val (int_val 0)); Ok (num_val (int_val (-1))); Ok (num_val (int_val 1))].
Proof. reflexivity. Qed.
Example C72_no_date : call (fun _ => []) (timecmp_func (fun _ => 0) (fun s => s)) [plain (SStr "2023-02-29T00:00:00Z"); plain (SStr "2023-03-01T00:00:00Z")] = Err "not a valid RFC3339 timestamp: day out of range".
Proof. reflexivity. Qed.
Example C72_says : says "1970-01-01T01:00:00.25+01:00" (1000000000 * (719528 * 86400) + 250000000).
Proof. apply says_iff. do 3 eexists. split; reflexivity. Qed.

(* It is not exact beyond: instants that differ after the ninth digit compare as equal. *)
Theorem C72_exact_refuted : exists a b na nb, says_exactly a na 10 /\ says_exactly b nb 10 /\ na < nb /\
  forall local quoted, call (fun _ => []) (timecmp_func local quoted) [plain (SStr a); plain (SStr b)] = Ok (num_val (int_val 0)).
Proof.
  exists "0000-01-01T00:00:00.1234567890Z", "0000-01-01T00:00:00.1234567891Z", 1234567890, 1234567891.
  assert (X : forall d, is_digit d -> says_exactly ("0000-01-01T00:00:00.123456789" +++ String (digit_char d) "Z") (1234567890 + d) 10).
  { intros d D. exists (Date 0 1 1), 0, [1;2;3;4;5;6;7;8;9;d], 0, 0. split; [|split; [constructor|split; [reflexivity|]]].
    - apply (timestamp_text (Date 0 1 1) 0 0 0 [1;2;3;4;5;6;7;8;9;d] 0 (String "." (digits_text [1;2;3;4;5;6;7;8;9;d])) "Z"); try (cbn; lia); [|constructor|constructor].
      + exists 31. split; [apply ml_long; cbn; tauto|cbn; lia].
      + intros x I. cbn in I. unfold is_digit in *. intuition lia.
    - cbn [List.length Z.of_nat]. unfold digits_value. cbn [fold_left]. lia. }
  split; [exact (X 0 ltac:(unfold is_digit; lia))|]. split; [exact (X 1 ltac:(unfold is_digit; lia))|]. split; [lia|]. reflexivity.
Qed.
Print Assumptions C72_exact_refuted.

(* ----- C81: timeadd ----- *)

Lemma timeadd_call : forall local quoted fp early ms ms' t b sec k o d, parse_rfc3339 t = Some (sec, k, o) -> parse_duration fp b = Some d ->
  exists r, call early (timeadd_func local quoted fp) [Val ms (SStr t) []; Val ms' (SStr b) []] = Ok r /\
    shape_of r = SStr (format_rfc3339 local (time_add (Time sec k (locate local sec o)) d)) /\ forall m, In m (marks_of r) <-> In m ms \/ In m ms'.
Proof.
  intros local quoted fp early ms ms' t b sec k o d P D. eexists. split; [|split].
  - unfold call, timeadd_func. cbn -[time_parse parse_timestamp parse_duration format_rfc3339 time_add with_marks flat_map str_val].
    unfold parse_timestamp. rewrite (strict_time _ _ P), D. cbn [bindr]. reflexivity.
  - reflexivity.
  - intro m. rewrite marks_with. cbn. rewrite !app_nil_r, in_app_iff. tauto.
Qed.
(* The result says the sum, less its fraction of a second.  The instants are between the second of
   January of the year 0 and the last of December of 9999. *)
Theorem C81_add : forall local quoted float_part early ms ms' t b ns d, minutes_zone local -> exact_part float_part ->
  says t ns -> duration d b -> - 2 ^ 63 <= d < 2 ^ 63 -> 86400000000000 * 1 <= ns + d < 86400000000000 * 3652424 -> exists r u,
  call early (timeadd_func local quoted float_part) [Val ms (SStr t) []; Val ms' (SStr b) []] = Ok r /\ shape_of r = SStr u /\
  says u (1000000000 * ((ns + d) / 1000000000)) /\ forall m, In m (marks_of r) <-> In m ms \/ In m ms'.
Proof.
  intros local quoted fp early ms ms' t b ns d Z E (a & secs & f & z & n & T & N & ->) D B R.
  destruct (add_says local fp a secs f z t n b d E T N D B R (fun _ => Z _)) as (sec & k & o & dn & P & Pd & a' & secs' & z' & n' & T' & N' & S & _).
  destruct (timeadd_call local quoted fp early ms ms' t b sec k o dn P Pd) as (r & C & Sh & M). exists r. eexists. split; [exact C|]. split; [exact Sh|]. split; [|exact M].
  exists a', secs', [], z', n'. split; [exact T'|]. split; [exact N'|]. rewrite S. change (billionths []) with 0. lia.
Qed.
Print Assumptions C81_add.
Example C81_days : day_number (Date 0 1 2) 1 /\ day_number (Date 9999 12 31) 3652424.
Proof.
  assert (X : forall a n, is_date a -> 0 <= year a -> n = number a -> day_number a n) by (intros a n H Y ->; apply day_number_exists; assumption).
  split; apply X; try reflexivity; try (cbn; lia); exists 31; (split; [apply ml_long; cbn; tauto|cbn; lia]).
Qed.
(* The result has the offset of the timestamp, unless that is the one of the local clock and the
   local clock has changed. *)
Theorem C81_zone : forall local quoted float_part early ms ms' a secs f z t n b d, exact_part float_part ->
  timestamp a secs f z t -> day_number a n -> duration d b -> - 2 ^ 63 <= d < 2 ^ 63 ->
  let ns := 1000000000 * (86400 * n + secs - 60 * z) + billionths f in
  86400000000000 * 1 <= ns + d < 86400000000000 * 3652424 ->
  (local (ns / 1000000000) = 60 * z -> local ((ns + d) / 1000000000) = 60 * z) -> exists r u a' secs',
  call early (timeadd_func local quoted float_part) [Val ms (SStr t) []; Val ms' (SStr b) []] = Ok r /\ shape_of r = SStr u /\
  timestamp a' secs' [] z u.
Proof.
  intros local quoted fp early ms ms' a secs f z t n b d E T N D B ns R L.
  destruct (add_says local fp a secs f z t n b d E T N D B R (fun H => ex_intro _ z (conj (L H) (zone_range _ _ _ _ _ T))))
    as (sec & k & o & dn & P & Pd & a' & secs' & z' & n' & T' & N' & S & Q).
  destruct (timeadd_call local quoted fp early ms ms' t b sec k o dn P Pd) as (r & C & Sh & M). exists r. eexists. exists a', secs'. split; [exact C|]. split; [exact Sh|].
  fold ns in Q. assert (Ez : z' = z) by (destruct Q as [Q|[Q1 Q2]]; [exact Q|]; assert (X := L Q1); lia). rewrite Ez in T'. exact T'.
Qed.
Print Assumptions C81_zone.
(* Only durations are added, and only to what is read. *)
Theorem C81_only : forall local quoted float_part early ms ms' t b r,
  call early (timeadd_func local quoted float_part) [Val ms (SStr t) []; Val ms' (SStr b) []] = Ok r ->
  (exists ns z, reads t ns z) /\ duration_form b.
Proof.
  intros local quoted fp early ms ms' t b r H. unfold call, timeadd_func in H.
  cbn -[time_parse parse_timestamp parse_duration format_rfc3339 time_add with_marks flat_map str_val] in H.
  split.
  - unfold parse_timestamp in H. destruct (time_parse t) as [[[s k] o]|] eqn:P; [|discriminate H]. exact (parsed_reads _ _ _ _ P).
  - destruct (parse_timestamp local quoted t); [|discriminate H|discriminate H]. cbn [bindr] in H.
    destruct (parse_duration fp b) as [d|] eqn:D; [|discriminate H]. exact (duration_inv fp b d D).
Qed.
Print Assumptions C81_only.

Definition whole_part (f unit : Z) (k : nat) : Z := f * unit / 10 ^ Z.of_nat k.
Example C81_exact_part : exact_part whole_part.
Proof.
  intros f p k B _. unfold whole_part. assert (T : 0 < 10 ^ Z.of_nat k) by (apply Z.pow_pos_nonneg; lia).
  replace (f * (10 ^ Z.of_nat k * p)) with (f * p * 10 ^ Z.of_nat k) by lia. apply Z.div_mul. lia.
Qed.
Example C81_sample : map (fun p => call (fun _ => []) (timeadd_func (fun _ => 7200) (fun s => s) whole_part) [plain (SStr (fst p)); plain (SStr (snd p))])
    [("2017-11-22T00:00:00Z", "-10m"); ("2024-02-28T23:59:59+02:00", "24h1.5s"); ("2024-12-31T23:30:00-05:00", "+.5h30m"); ("2023-03-01T00:00:00.9Z", "100ms")]
  = [Ok (str_val "2017-11-21T23:50:00Z"); Ok (str_val "2024-03-01T00:00:00+02:00"); Ok (str_val "2025-01-01T00:30:00-05:00"); Ok (str_val "2023-03-01T00:00:01Z")].
Proof. vm_compute. reflexivity. Qed.
Example C81_duration : duration (- 5400000000001) "-1.5h1ns".
Proof.
  apply (du_minus 5400000000001 "1.5h1ns"), mg_sum. apply (as_more 5400000000000 "1.5h" 1 "1ns").
  - apply (am_part [1] [5] "h" (3600 * 1000000000) 360000000000); [discriminate|intros d [<-|[<-|[]]]; unfold is_digit; lia|constructor|reflexivity].
  - apply as_one, (am_whole [1] "ns" 1); [discriminate|intros d [<-|[]]; unfold is_digit; lia|constructor].
Qed.
Example C81_bad : map (fun b => call (fun _ => []) (timeadd_func (fun _ => 0) (fun s => s) whole_part) [plain (SStr "2017-11-22T00:00:00Z"); plain (SStr b)]) [""; "1"; "1d"; "h"; "1h-1m"; "9223372036854775808ns"]
  = [Err "time: invalid duration"; Err "time: invalid duration"; Err "time: invalid duration"; Err "time: invalid duration"; Err "time: invalid duration"; Err "time: invalid duration"].
Proof. vm_compute. reflexivity. Qed.

(* Adding nothing is not the identity: the fraction of the second is lost. *)
Theorem C81_fraction_refuted : exists t u ns ns', says t ns /\ duration 0 "0s" /\ says u ns' /\ ns' <> ns /\ forall local quoted float_part,
  call (fun _ => []) (timeadd_func local quoted float_part) [plain (SStr t); plain (SStr "0s")] = Ok (str_val u).
Proof.
  exists "2024-01-01T00:00:00.5Z", "2024-01-01T00:00:00Z". do 2 eexists. split; [apply says_iff; do 3 eexists; split; reflexivity|].
  split; [apply du_plain, mg_sum, as_one, (am_whole [0] "s" 1000000000); [discriminate|intros d [<-|[]]; unfold is_digit; lia|constructor]|].
  split; [apply says_iff; do 3 eexists; split; reflexivity|]. split; [discriminate|]. intros. vm_compute. reflexivity.
Qed.
Print Assumptions C81_fraction_refuted.
(* After the year 9999 the result is no timestamp: neither timecmp nor timeadd take it. *)
Theorem C81_year_refuted : exists t u, (exists ns, says t ns) /\ (forall local quoted float_part,
  call (fun _ => []) (timeadd_func local quoted float_part) [plain (SStr t); plain (SStr "1s")] = Ok (str_val u)) /\ forall ns, ~ says u ns.
Proof.
  exists "9999-12-31T23:59:59Z", "10000-01-01T00:00:00Z". split; [eexists; apply says_iff; do 3 eexists; split; reflexivity|].
  split; [intros; vm_compute; reflexivity|]. intros ns H. apply says_iff in H. destruct H as (s & k & o & P & _). vm_compute in P. discriminate.
Qed.
Print Assumptions C81_year_refuted.
(* Nor before the year 0. *)
Theorem C81_before_refuted : exists t u, (exists ns, says t ns) /\ (forall local quoted float_part,
  call (fun _ => []) (timeadd_func local quoted float_part) [plain (SStr t); plain (SStr "-1s")] = Ok (str_val u)) /\ forall ns, ~ says u ns.
Proof.
  exists "0000-01-01T00:00:00Z", "-0001-12-31T23:59:59Z". split; [eexists; apply says_iff; do 3 eexists; split; reflexivity|].
  split; [intros; vm_compute; reflexivity|]. intros ns H. apply says_iff in H. destruct H as (s & k & o & P & _). vm_compute in P. discriminate.
Qed.
Print Assumptions C81_before_refuted.
(* The same timestamp gets another offset where the local clock changes: the same call gives
   different texts on different machines. *)
Theorem C81_machine_refuted : exists t b local local' u u', minutes_zone local /\ minutes_zone local' /\ u <> u' /\ forall quoted float_part,
  call (fun _ => []) (timeadd_func local quoted float_part) [plain (SStr t); plain (SStr b)] = Ok (str_val u) /\
  call (fun _ => []) (timeadd_func local' quoted float_part) [plain (SStr t); plain (SStr b)] = Ok (str_val u').
Proof.
  (* 2024-03-31T01:00:00Z is 63879066000 seconds after the start of the year 0 *)
  exists "2024-03-30T12:00:00+01:00", "24h", (fun s => if s <? 63879066000 then 60 * 60 else 60 * 120), (fun _ => 60 * 0), "2024-03-31T13:00:00+02:00", "2024-03-31T12:00:00+01:00".
  split; [intro s; destruct (_ <? _); eexists; (split; [reflexivity|lia])|]. split; [intro s; eexists; split; [reflexivity|lia]|]. split; [discriminate|].
  intros; split; vm_compute; reflexivity.
Qed.
Print Assumptions C81_machine_refuted.
(* Durations out of range are not all refused: 2 ^ 64 nanoseconds in two halves count as nothing. *)
Theorem C81_range_refuted : exists b, duration (2 ^ 64) b /\ forall local quoted float_part,
  call (fun _ => []) (timeadd_func local quoted float_part) [plain (SStr "2024-01-01T00:00:00Z"); plain (SStr b)] = Ok (str_val "2024-01-01T00:00:00Z").
Proof.
  exists "9223372036854775808ns9223372036854775808ns". split; [|intros; vm_compute; reflexivity].
  assert (A : amount (2 ^ 63) "9223372036854775808ns").
  { apply (am_whole [9;2;2;3;3;7;2;0;3;6;8;5;4;7;7;5;8;0;8] "ns" 1); [discriminate| |constructor]. intros d I. unfold is_digit. cbn in I. intuition lia. }
  apply du_plain, mg_sum. exact (as_more _ _ _ _ A (as_one _ _ A)).
Qed.
Print Assumptions C81_range_refuted.

(* ----- C86: what is read as a timestamp, and what is said about the rest ----- *)

(* A text is read in one way, or refused in one way. *)
Theorem C86_either : forall quoted t, (exists ns z, reads t ns z) /\ (forall msg, ~ refusal quoted t msg) \/ (exists msg, refusal quoted t msg) /\ forall ns z, ~ reads t ns z.
Proof.
  intros quoted t. destruct (time_parse t) as [[[s k] o]|e] eqn:P.
  - left. split; [exact (parsed_reads _ _ _ _ P)|]. intros msg R. apply refusal_iff in R. destruct R as (e & E & _). congruence.
  - right. split.
    + destruct (error_prefix quoted e) as [msg E]. exists msg. apply refusal_iff. eauto.
    + intros ns z R. apply reads_iff in R. destruct R as (s & n & o & R & _). congruence.
Qed.
Print Assumptions C86_either.
Theorem C86_one : forall t ns z ns' z', reads t ns z -> reads t ns' z' -> ns = ns' /\ z = z'.
Proof.
  intros t ns z ns' z' A B. apply reads_iff in A, B. destruct A as (s & n & o & P & -> & O), B as (s' & n' & o' & P' & -> & O').
  assert (s = s') by congruence. assert (n = n') by congruence. assert (o = o') by congruence. subst. lia.
Qed.
Print Assumptions C86_one.
(* What a timestamp is read as is what it says. *)
Theorem C86_timestamps : forall t ns, says t ns -> exists z, reads t ns z.
Proof. exact says_reads. Qed.
Print Assumptions C86_timestamps.
(* All that is read is compared, to the nanosecond. *)
Theorem C86_compare : forall local quoted early ms ms' a b na nb za zb, reads a na za -> reads b nb zb -> exists r,
  call early (timecmp_func local quoted) [Val ms (SStr a) []; Val ms' (SStr b) []] = Ok r /\
  shape_of r = SNum (int_val (Z.sgn (na - nb))) /\ forall m, In m (marks_of r) <-> In m ms \/ In m ms'.
Proof.
  intros local quoted early ms ms' a b na nb za zb A B. apply reads_iff in A, B. destruct A as (sa & ka & oa & A & -> & _), B as (sb & kb & ob & B & -> & _).
  eexists. split; [|split].
  - unfold call, timecmp_func. cbn -[time_parse parse_timestamp time_equal time_before with_marks flat_map num_val int_val].
    unfold parse_timestamp. rewrite A, B. cbn [bindr]. rewrite (compare_sgn _ _ _ _ _ _ (parsed_bound _ _ _ _ A) (parsed_bound _ _ _ _ B)). reflexivity.
  - reflexivity.
  - intro m. rewrite marks_with. cbn. rewrite !app_nil_r, in_app_iff. tauto.
Qed.
Print Assumptions C86_compare.
(* For a text with an offset of less than a day there is a timestamp that says the same and to
   which the same is added. *)
Theorem C86_add : forall t ns z, reads t ns z -> -1439 <= z <= 1439 -> exists t', says t' ns /\ forall local quoted float_part early ms ms' b,
  call early (timeadd_func local quoted float_part) [Val ms (SStr t) []; Val ms' (SStr b) []] =
  call early (timeadd_func local quoted float_part) [Val ms (SStr t') []; Val ms' (SStr b) []].
Proof.
  intros t ns z R B. destruct (like_timestamp t ns z R B) as (t' & S & E). exists t'. split; [exact S|]. intros.
  unfold call, timeadd_func. cbn -[time_parse parse_timestamp parse_duration format_rfc3339 time_add with_marks flat_map str_val].
  unfold parse_timestamp. rewrite E. reflexivity.
Qed.
Print Assumptions C86_add.
(* What is said about a text that is not read, by both functions; timecmp looks at its first argument
   first. *)
Theorem C86_message : forall local quoted float_part early ms ms' t msg b, refusal quoted t msg ->
  call early (timeadd_func local quoted float_part) [Val ms (SStr t) []; Val ms' (SStr b) []] = Err ("not a valid RFC3339 timestamp" +++ msg) /\
  call early (timecmp_func local quoted) [Val ms (SStr t) []; Val ms' (SStr b) []] = Err ("not a valid RFC3339 timestamp" +++ msg) /\
  forall ns z, reads b ns z -> call early (timecmp_func local quoted) [Val ms' (SStr b) []; Val ms (SStr t) []] = Err ("not a valid RFC3339 timestamp" +++ msg).
Proof.
  intros local quoted fp early ms ms' t msg b R. apply refusal_iff in R. destruct R as (e & P & <-). unfold call, timeadd_func, timecmp_func.
  cbn -[time_parse parse_timestamp parse_duration format_rfc3339 time_add time_equal time_before with_marks flat_map str_val num_val int_val timestamp_error].
  unfold parse_timestamp. rewrite P. split; [reflexivity|]. split; [reflexivity|]. intros ns z B. apply reads_iff in B. destruct B as (s & n & o & -> & _). reflexivity.
Qed.
Print Assumptions C86_message.

Definition cmp (a b : string) := call (fun _ => []) (timecmp_func (fun _ => 0) (fun s => String "'" (s +++ "'"))) [plain (SStr a); plain (SStr b)].
Example C86_sample : map (fun t => cmp t "2024-01-01T00:00:00Z")
    ["24-01-01"; "2024/01/01"; "2024-1-01"; "2024-01-00T00:00:00Z"; "2024-01-01 00:00:00Z"; "2024-01-01T24:00:00Z"; "2024-01-01T00"; "2024-01-01T00:00:0Z"; "2024-01-01T00:00:00"; "2024-01-01T00:00:00+0100"]
  = map (fun m => Err ("not a valid RFC3339 timestamp" +++ m))
    [": cannot use '24-01-01' as year"; ": found '/01/01' where '-' is expected"; ": cannot use '1-01' as month"; ": day out of range"; ": missing required time introducer 'T'";
     ": cannot use ':00:00Z' as hour"; ": end of string where ':' is expected"; ": cannot use '0Z' as second"; ": end of string before UTC offset"; ": cannot use '+0100' as UTC offset"].
Proof. reflexivity. Qed.

(* Texts that are no timestamps are taken: an hour of one digit, a comma, an offset of more than a day. *)
Theorem C86_loose_refuted : forall t, In t ["2024-01-01T0:00:00Z"; "2024-01-01T00:00:00,5Z"; "2024-01-01T00:00:00+24:60"] ->
  (forall ns, ~ says t ns) /\ exists ns z, reads t ns z.
Proof.
  intros t I. split.
  - intros ns H. apply says_iff in H. destruct H as (s & k & o & P & _). cbn in I. destruct I as [<-|[<-|[<-|[]]]]; vm_compute in P; discriminate.
  - cbn in I. destruct I as [<-|[<-|[<-|[]]]]; eapply parsed_reads; reflexivity.
Qed.
Print Assumptions C86_loose_refuted.
(* Of the last of them timeadd makes a text that is refused. *)
Theorem C86_offset_refuted : exists t u, (exists ns z, reads t ns z) /\ (forall quoted float_part,
    call (fun _ => []) (timeadd_func (fun _ => 0) quoted float_part) [plain (SStr t); plain (SStr "0s")] = Ok (str_val u)) /\
  forall ns z, ~ reads u ns z.
Proof.
  exists "2024-01-02T00:00:00+24:60", "2024-01-02T00:00:00+25:00". split; [eapply parsed_reads; reflexivity|]. split; [intros; vm_compute; reflexivity|].
  intros ns z R. apply reads_iff in R. destruct R as (s & n & o & R & _). vm_compute in R. discriminate.
Qed.
Print Assumptions C86_offset_refuted.
(* The text that is said not to be a month is not the one in its place but the one after it. *)
Theorem C86_quoted_refuted : exists y m r, 0 <= y <= 9999 /\ forall quoted,
  refusal quoted (four_digits y +++ "-" +++ m +++ r) (": cannot use " +++ quoted r +++ " as month").
Proof.
  exists 2024, "13", "-01T00:00:00Z". split; [lia|]. intro quoted. apply refusal_iff. eexists. split; reflexivity.
Qed.
Print Assumptions C86_quoted_refuted.
(* Where the text ends with such a month, it is said that there is none. *)
Theorem C86_end_refuted : forall quoted, refusal quoted "2024-13" ": end of string before month".
Proof. intro quoted. apply refusal_iff. eexists. split; reflexivity. Qed.
Print Assumptions C86_end_refuted.
(* The message that should never be used is used: for a timestamp with something after it. *)
Theorem C86_segment_refuted : forall quoted, refusal quoted "2024-01-01T00:00:00Zulu" (": cannot use " +++ quoted "ulu" +++ " as timestamp segment").
Proof. intro quoted. apply refusal_iff. eexists. split; reflexivity. Qed.
Print Assumptions C86_segment_refuted.
(* A sensitive text is shown. *)
Theorem C86_secret_refuted : forall local quoted early ms b,
  call early (timecmp_func local quoted) [Val ms (SStr "secret") []; plain (SStr b)] = Err ("not a valid RFC3339 timestamp: cannot use " +++ quoted "secret" +++ " as year").
Proof.
  intros. apply (proj1 (proj2 (C86_message local quoted (fun _ _ _ => 0) early ms [] "secret" (": cannot use " +++ quoted "secret" +++ " as year") b ltac:(apply refusal_iff; eexists; split; reflexivity)))).
Qed.
Print Assumptions C86_secret_refuted.

(* ----- C88: timestamp ----- *)

(* A time whose clock is a whole number of minutes from UTC, in the years 0 to 9999 of that clock,
   is written as a timestamp with that offset that says its second. *)
Lemma format_says : forall local t z, offset_at local t = 60 * z -> -1439 <= z <= 1439 ->
  0 <= t_sec t + 60 * z < 86400 * 3652425 -> exists a secs, timestamp a secs [] z (format_rfc3339 local t) /\
  says (format_rfc3339 local t) (1000000000 * t_sec t).
Proof.
  intros local t z O B R.
  assert (Y : 0 <= year_of ((t_sec t + 60 * z) / 86400) <= 9999).
  { apply year_range. split; [apply Z.div_pos; lia|apply Z.div_lt_upper_bound; lia]. }
  destruct (format_spec local t z O B Y) as (a & secs & T & N). exists a, secs. split; [exact T|].
  exists a, secs, [], z, (number a). split; [exact T|]. split.
  - destruct T as [a0 h m s f0 z0 ft zt D0 Y0]. apply day_number_exists; [exact D0|lia].
  - change (billionths []) with 0. lia.
Qed.
(* timestamp gives the present second in UTC, *)
Theorem C88_now : forall local early now, 0 <= now < 86400000000000 * 3652425 -> exists u a secs,
  call early (timestamp_func local now) [] = Ok (str_val u) /\ timestamp a secs [] 0 u /\
  says u (1000000000 * (now / 1000000000)).
Proof.
  intros local early now R.
  destruct (format_says local (Time (now / 1000000000) (now mod 1000000000) UTC) 0) as (a & secs & T & S); [reflexivity|lia| |].
  - cbn [t_sec]. split; [pose proof (Z.div_pos now 1000000000); lia|].
    assert (now / 1000000000 < 86400 * 3652425) by (apply Z.div_lt_upper_bound; lia). lia.
  - eexists. exists a, secs. split; [reflexivity|]. split; [exact T|exact S].
Qed.
Print Assumptions C88_now.
(* a given time is said on its own clock, *)
Theorem C88_static : forall local early t z, offset_at local t = 60 * z -> -1439 <= z <= 1439 ->
  0 <= t_sec t + 60 * z < 86400 * 3652425 -> exists u a secs,
  call early (static_timestamp_func local t) [] = Ok (str_val u) /\ timestamp a secs [] z u /\ says u (1000000000 * t_sec t).
Proof.
  intros local early t z O B R. destruct (format_says local t z O B R) as (a & secs & T & S).
  eexists. exists a, secs. split; [reflexivity|]. split; [exact T|exact S].
Qed.
Print Assumptions C88_static.
(* what timestamp gives is compared by timecmp as the seconds are, so that it never goes back when the
   clock does not, *)
Theorem C88_order : forall local quoted early now now', 0 <= now < 86400000000000 * 3652425 -> 0 <= now' < 86400000000000 * 3652425 ->
  exists u u' r, call early (timestamp_func local now) [] = Ok (str_val u) /\ call early (timestamp_func local now') [] = Ok (str_val u') /\
  call early (timecmp_func local quoted) [str_val u; str_val u'] = Ok r /\
  shape_of r = SNum (int_val (Z.sgn (now / 1000000000 - now' / 1000000000))) /\
  (now <= now' -> shape_of r <> SNum (int_val 1)).
Proof.
  intros local quoted early now now' R R'.
  destruct (C88_now local early now R) as (u & a & secs & C & _ & S), (C88_now local early now' R') as (u' & a' & secs' & C' & _ & S').
  destruct (C72_compare local quoted early [] [] u u' _ _ S S') as (r & Cr & Sh & _). exists u, u', r.
  replace (Z.sgn (1000000000 * (now / 1000000000) - 1000000000 * (now' / 1000000000))) with (Z.sgn (now / 1000000000 - now' / 1000000000)) in Sh
    by (destruct (Z.sgn_spec (now / 1000000000 - now' / 1000000000)) as [[? ->]|[[? ->]|[? ->]]]; symmetry;
        [apply Z.sgn_pos|replace (1000000000 * (now / 1000000000) - 1000000000 * (now' / 1000000000)) with 0 by lia; reflexivity|apply Z.sgn_neg]; lia).
  split; [exact C|]. split; [exact C'|]. split; [exact Cr|]. split; [exact Sh|]. intros L. rewrite Sh.
  assert (now / 1000000000 <= now' / 1000000000) by (apply Z.div_le_mono; lia).
  destruct (Z.sgn_spec (now / 1000000000 - now' / 1000000000)) as [[X _]|[[_ ->]|[_ ->]]]; [lia|discriminate|discriminate].
Qed.
Print Assumptions C88_order.
(* timeadd takes it, *)
Theorem C88_added : forall local quoted float_part early now b d, minutes_zone local -> exact_part float_part ->
  0 <= now < 86400000000000 * 3652425 -> duration d b -> - 2 ^ 63 <= d < 2 ^ 63 ->
  86400000000000 <= 1000000000 * (now / 1000000000) + d < 86400000000000 * 3652424 -> exists u r v,
  call early (timestamp_func local now) [] = Ok (str_val u) /\
  call early (timeadd_func local quoted float_part) [str_val u; str_val b] = Ok r /\ shape_of r = SStr v /\
  says v (1000000000 * ((1000000000 * (now / 1000000000) + d) / 1000000000)).
Proof.
  intros local quoted fp early now b d Z E R D B G. destruct (C88_now local early now R) as (u & a & secs & C & _ & S).
  destruct (C81_add local quoted fp early [] [] u b _ d Z E S D B G) as (r & v & Cr & Sh & Sv & _). exists u, r, v. auto.
Qed.
Print Assumptions C88_added.
(* and there are no arguments. *)
Theorem C88_arguments : forall local early now t v args,
  call early (timestamp_func local now) (v :: args) = Err "wrong number of arguments" /\
  call early (static_timestamp_func local t) (v :: args) = Err "wrong number of arguments".
Proof. intros. split; reflexivity. Qed.
Print Assumptions C88_arguments.
(* The instant itself is not kept: two instants of a second are the same text. *)
Theorem C88_instant_refuted : forall local, exists now now', now < now' /\
  call (fun _ => []) (timestamp_func local now) [] = call (fun _ => []) (timestamp_func local now') [].
Proof. intro local. exists 0, 999999999. split; [lia|]. vm_compute. reflexivity. Qed.
Print Assumptions C88_instant_refuted.
(* A clock that is not whole minutes from UTC (as that of Amsterdam before 1937) gives another instant, *)
Theorem C88_zone_refuted : exists t u ns, (forall local, call (fun _ => []) (static_timestamp_func local t) [] = Ok (str_val u)) /\
  says u ns /\ ns <> 1000000000 * t_sec t.
Proof.
  (* 1900-01-01T00:00:00 on a clock 19 minutes and 32 seconds ahead of UTC *)
  exists (Time 59958229228 0 (Fixed 1172)), "1900-01-01T00:00:00+00:19", 59958229260000000000.
  split; [intro; vm_compute; reflexivity|]. split; [apply says_iff; do 3 eexists; split; reflexivity|]. discriminate.
Qed.
Print Assumptions C88_zone_refuted.
(* and after the year 9999 nothing is said at all. *)
Theorem C88_year_refuted : exists now u, (forall local, call (fun _ => []) (timestamp_func local now) [] = Ok (str_val u)) /\ forall ns, ~ says u ns.
Proof.
  exists (86400000000000 * 3652425), "10000-01-01T00:00:00Z". split; [intro; vm_compute; reflexivity|].
  intros ns H. apply says_iff in H. destruct H as (s & k & o & P & _). vm_compute in P. discriminate.
Qed.
Print Assumptions C88_year_refuted.
Example C88_sample : forall local,
  call (fun _ => []) (timestamp_func local 63879066000999999999) [] = Ok (str_val "2024-03-31T01:00:00Z") /\
  call (fun _ => []) (static_timestamp_func local (Time 63879066000 5 (Fixed (-16200)))) [] = Ok (str_val "2024-03-30T20:30:00-04:30").
Proof. intro. split; vm_compute; reflexivity. Qed.
