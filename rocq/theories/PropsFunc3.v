(* The properties of parseint, of the functions on texts, of length and of signum. *)

From Verif Require Import Base CtyModel FuncModel FuncSpec FuncProofs FuncText.
From Coq Require Import Lia.

Definition no_marks (l : list (param * value)) : list mark := [].

(* ----- C66: parseint ----- *)

Lemma set_int_bits : forall z, let p := Z.max 64 (Z.log2 (Z.abs z) + 1) in
  (Z.abs z < 2 ^ p)%Z /\ (p = 64 \/ 64 < p /\ 2 ^ (p - 1) <= Z.abs z)%Z.
Proof.
  intros z p. destruct (Z.eq_dec z 0) as [->|N].
  { split; [reflexivity|left; reflexivity]. }
  pose proof (Z.log2_spec (Z.abs z) ltac:(lia)) as [L U]. assert (P : (p = 64 \/ p = Z.log2 (Z.abs z) + 1 /\ 64 < p)%Z) by (unfold p; lia). split.
  - eapply Z.lt_le_trans; [exact U|]. apply Z.pow_le_mono_r; [lia|unfold p; lia].
  - destruct P as [P|[P Q]]; [left; exact P|right]. split; [exact Q|]. rewrite P. replace (Z.log2 (Z.abs z) + 1 - 1)%Z with (Z.log2 (Z.abs z)) by lia. exact L.
Qed.
(* A numeral of a base from 2 to 62 gives its value, exactly, in the bits it needs and at least
   64, with the marks of both. *)
Theorem C66_value : forall quoted friendly itoa early ms s bm n base z,
  number_is n base -> (2 <= base <= 62)%Z -> numeral base s z ->
  exists r p, call early (parseint_func quoted friendly itoa) [Val ms (SStr s) []; Val bm (SNum n) []] = Ok r /\
    shape_of r = SNum (Fin p (mkD z 0)) /\ (Z.abs z < 2 ^ p)%Z /\ (p = 64 \/ 64 < p /\ 2 ^ (p - 1) <= Z.abs z)%Z /\
    forall m, In m (marks_of r) <-> In m ms \/ In m bm.
Proof.
  intros quoted friendly itoa early ms s bm n base z B R N. apply to_int_spec in B. apply parse_int_spec in N.
  do 2 eexists. split.
  - unfold call, parseint_func. cbn -[to_int parse_int redact]. rewrite B. cbn [bindr].
    replace ((base <? 2)%Z || (62 <? base)%Z) with false by lia. rewrite N. reflexivity.
  - split; [reflexivity|]. split; [apply set_int_bits|]. split; [apply set_int_bits|]. intro m. rewrite marks_with. cbn [marks_of]. rewrite filter_In.
    change (In m (union ms bm) /\ true = true \/ In m [] <-> In m ms \/ In m bm). rewrite union_In. cbn. tauto.
Qed.
Print Assumptions C66_value.

(* Everything else is refused. *)
Theorem C66_only : forall quoted friendly itoa early ms s bm n r,
  call early (parseint_func quoted friendly itoa) [Val ms (SStr s) []; Val bm (SNum n) []] = Ok r ->
  exists base z, number_is n base /\ (2 <= base <= 62)%Z /\ numeral base s z.
Proof.
  intros quoted friendly itoa early ms s bm n r H. unfold call, parseint_func in H. cbn -[to_int parse_int redact] in H.
  destruct (to_int (Val [] (SNum n) [])) as [base|e|e] eqn:B; cbn [bindr no_panic] in H; try discriminate.
  destruct ((base <? 2)%Z || (62 <? base)%Z) eqn:R; cbn [bindr no_panic] in H; [discriminate|].
  destruct (parse_int base s) as [z|] eqn:P; cbn [bindr no_panic] in H; [|discriminate].
  exists base, z. split; [apply to_int_spec; exact B|]. split; [lia|apply parse_int_spec; exact P].
Qed.
Print Assumptions C66_only.
Theorem C66_no_panic : forall quoted friendly itoa early ms s bm n,
  (exists r, call early (parseint_func quoted friendly itoa) [Val ms (SStr s) []; Val bm (SNum n) []] = Ok r) \/
  exists e, call early (parseint_func quoted friendly itoa) [Val ms (SStr s) []; Val bm (SNum n) []] = Err e.
Proof.
  intros quoted friendly itoa early ms s bm n. unfold call, parseint_func. cbn -[to_int parse_int redact].
  destruct (to_int (Val [] (SNum n) [])) as [base|e|e]; cbn [bindr no_panic]; [|eauto|eauto].
  destruct ((base <? 2)%Z || (62 <? base)%Z); cbn [bindr no_panic]; [eauto|].
  destruct (parse_int base s); cbn [bindr no_panic]; eauto.
Qed.
Print Assumptions C66_no_panic.

Example C66_sample :
  numeral 16 "-fF" (-255) /\ number_is (int_val 16) 16 /\
  call no_marks (parseint_func id (fun _ => "") (fun _ => "")) [Val ["a"] (SStr "-fF") []; Val ["b"] (SNum (int_val 16)) []]
    = Ok (Val ["a"; "b"] (SNum (Fin 64 (mkD (-255) 0))) []) /\
  call no_marks (parseint_func id (fun _ => "") (fun _ => "")) [str_val "aZ"; num_val (int_val 62)]
    = Ok (num_val (Fin 64 (mkD (10 * 62 + 61) 0))) /\
  (exists e, call no_marks (parseint_func id (fun _ => "") (fun _ => "10")) [str_val "1a"; num_val (int_val 10)] = Err e) /\
  (exists e, call no_marks (parseint_func id (fun _ => "") (fun _ => "10")) [str_val ""; num_val (int_val 10)] = Err e) /\
  (exists e, call no_marks (parseint_func id (fun _ => "") (fun _ => "10")) [str_val "1"; num_val (int_val 63)] = Err e).
Proof.
  split; [apply parse_int_spec; reflexivity|]. split; [apply to_int_spec; reflexivity|].
  split; [reflexivity|]. split; [reflexivity|]. repeat split; eexists; reflexivity.
Qed.

(* ----- C67: endswith, strcontains and replace ----- *)

Theorem C67_endswith : forall early ms ms' s suf, exists r b,
  call early endswith_func [Val ms (SStr s) []; Val ms' (SStr suf) []] = Ok r /\ shape_of r = SBool b /\
  (b = true <-> exists p, s = p +++ suf) /\ forall m, In m (marks_of r) <-> In m ms \/ In m ms'.
Proof.
  intros early ms ms' s suf. do 2 eexists. split; [reflexivity|]. split; [reflexivity|]. split; [apply has_suffix_spec|].
  intro m. rewrite marks_with. cbn. rewrite !app_nil_r, in_app_iff. tauto.
Qed.
Print Assumptions C67_endswith.
Theorem C67_strcontains : forall early ms ms' s sub, exists r b,
  call early strcontains_func [Val ms (SStr s) []; Val ms' (SStr sub) []] = Ok r /\ shape_of r = SBool b /\
  (b = true <-> exists p q, s = p +++ sub +++ q) /\ forall m, In m (marks_of r) <-> In m ms \/ In m ms'.
Proof.
  intros early ms ms' s sub. do 2 eexists. split; [reflexivity|]. split; [reflexivity|]. split; [apply contains_spec|].
  intro m. rewrite marks_with. cbn. rewrite !app_nil_r, in_app_iff. tauto.
Qed.
Print Assumptions C67_strcontains.

(* A text that is not between slashes is replaced literally. *)
Theorem C67_replace : forall rr early ms ms' ms'' s sub by_, sub <> "" -> (forall q, sub <> "/" +++ q +++ "/") ->
  exists r out, call early (replace_func rr) [Val ms (SStr s) []; Val ms' (SStr sub) []; Val ms'' (SStr by_) []] = Ok r /\
    shape_of r = SStr out /\ (forall out', replaced sub by_ s out' <-> out' = out) /\
    forall m, In m (marks_of r) <-> In m ms \/ In m ms' \/ In m ms''.
Proof.
  intros rr early ms ms' ms'' s sub by_ N NS.
  assert (I : in_slashes sub = false).
  { destruct (in_slashes sub) eqn:E; [|reflexivity]. apply in_slashes_spec in E. destruct E as (q & E). exfalso. exact (NS q E). }
  assert (Z : String.eqb sub "" = false) by (apply String.eqb_neq; exact N).
  do 2 eexists. split; [|split; [|split]].
  - unfold call, replace_func. cbn -[in_slashes replace_all String.eqb]. rewrite I, Z. reflexivity.
  - reflexivity.
  - pose proof (replace_all_spec sub by_ N _ s (le_n _)) as R. intro out'. split; [intro R'; exact (replaced_fun _ _ _ _ _ N R' R)|intros ->; exact R].
  - intro m. rewrite marks_with. cbn. rewrite !app_nil_r, !in_app_iff. tauto.
Qed.
Print Assumptions C67_replace.
(* So a text without an occurrence, or replaced by itself, is unchanged. *)
Theorem C67_replace_same : forall sub by_ s out, sub <> "" -> replaced sub by_ s out ->
  (forall p q, s <> p +++ sub +++ q) \/ sub = by_ -> out = s.
Proof.
  intros sub by_ s out N R [A| <-]; [|exact (replaced_same _ _ _ R)].
  exact (replaced_fun _ _ _ _ _ N R (replaced_absent _ by_ _ A)).
Qed.
Print Assumptions C67_replace_same.
(* The empty text stands before, between and after the characters (of ASCII texts here). *)
Theorem C67_replace_empty : forall rr early ms ms' ms'' s by_, (forall c, In c (list_ascii_of_string s) -> (N_of_ascii c < 128)%N) ->
  exists r, call early (replace_func rr) [Val ms (SStr s) []; Val ms' (SStr "") []; Val ms'' (SStr by_) []] = Ok r /\
    shape_of r = SStr (String.concat by_ ("" :: map (fun c => String c "") (list_ascii_of_string s) ++ [""])) /\
    forall m, In m (marks_of r) <-> In m ms \/ In m ms' \/ In m ms''.
Proof.
  intros rr early ms ms' ms'' s by_ _. eexists. split; [reflexivity|]. split.
  - cbn -[insert_everywhere String.concat]. f_equal.
    assert (E : forall x, String.concat by_ (x :: map (fun c => String c "") (list_ascii_of_string s) ++ [""]) = x +++ insert_everywhere by_ s).
    { induction s as [|c s IH]; intro x; [cbn; rewrite append_nil; reflexivity|].
      cbn [list_ascii_of_string map app insert_everywhere]. change (String.concat by_ (x :: ?l)) with (x +++ by_ +++ String.concat by_ l).
      rewrite IH. reflexivity. }
    rewrite E. reflexivity.
  - intro m. rewrite marks_with. cbn. rewrite !app_nil_r, !in_app_iff. tauto.
Qed.
Print Assumptions C67_replace_empty.
(* Between slashes it is a regular expression, which the library compiles and replaces. *)
Theorem C67_regexp : forall rr early ms ms' ms'' s q by_ out, rr q s by_ = Ok out ->
  exists r, call early (replace_func rr) [Val ms (SStr s) []; Val ms' (SStr ("/" +++ q +++ "/")) []; Val ms'' (SStr by_) []] = Ok r /\
    shape_of r = SStr out.
Proof.
  intros rr early ms ms' ms'' s q by_ out H.
  assert (I : in_slashes ("/" +++ q +++ "/") = true) by (apply in_slashes_spec; eauto).
  eexists. split.
  - unfold call, replace_func. cbn -[in_slashes append substring String.length String.eqb Nat.sub]. rewrite I, inside_slashes, H. reflexivity.
  - reflexivity.
Qed.
Print Assumptions C67_regexp.

Example C67_sample :
  replaced "aa" "b" "aaaxa" "baxa" /\
  call no_marks (replace_func (fun _ _ _ => Err "")) [Val ["m"] (SStr "aaaxa") []; str_val "aa"; str_val "b"] = Ok (Val ["m"] (SStr "baxa") []) /\
  call no_marks (replace_func (fun _ _ _ => Err "")) [str_val "ab"; str_val ""; str_val "-"] = Ok (str_val "-a-b-") /\
  call no_marks endswith_func [str_val "abc"; str_val "bc"] = Ok (bool_val true) /\
  call no_marks endswith_func [str_val "abc"; str_val "b"] = Ok (bool_val false) /\
  call no_marks strcontains_func [str_val "abc"; str_val "b"] = Ok (bool_val true) /\
  call no_marks strcontains_func [str_val "abc"; str_val "ca"] = Ok (bool_val false).
Proof. split; [apply (replace_all_spec "aa" "b" ltac:(discriminate) 9 "aaaxa"); cbn; lia|]. repeat split; reflexivity. Qed.

(* Other numbers of arguments are refused. *)
Theorem C67_arity : forall early f args, f_var f = None -> List.length args <> List.length (f_params f) ->
  exists e, call early f args = Err e.
Proof.
  intros early f args V N. unfold call. rewrite V.
  assert (H : forall ps l, List.length l <> List.length ps -> pair_args ps None l = None).
  { induction ps as [|p ps IH]; intros [|a l] H; cbn in *; try reflexivity; [destruct (H eq_refl)|]. rewrite IH; [reflexivity|congruence]. }
  rewrite (H _ _ N). eauto.
Qed.
Print Assumptions C67_arity.

(* ----- C68: length and signum ----- *)

Theorem C68_length : forall g early v n, length_is g v n ->
  exists r, call early (length_func g) [v] = Ok r /\ shape_of r = SNum (int_val n) /\ forall m, In m (marks_of r) <-> In m (marks_of v).
Proof.
  intros g early v n H.
  assert (F : forall ms ms', (forall m, In m ms' <-> In m ms) -> forall m, In m (union ms' []) <-> In m ms).
  { intros ms ms' X m. rewrite union_In, X. cbn. tauto. }
  destruct H as [ms s|ms t l|ms t l|ms t l K|ms l|ms l|ms k ts p K].
  - eexists. split; [reflexivity|]. split; [reflexivity|]. apply F. intro m. cbn. rewrite filter_In. cbn. tauto.
  - eexists. split; [reflexivity|]. split; [reflexivity|]. apply F. intro m. tauto.
  - eexists. split; [reflexivity|]. split; [reflexivity|]. apply F. intro m. tauto.
  - eexists. unfold call. cbn -[wholly_known Nat.ltb]. unfold length_val. cbn [shape_of elems marks_of].
    replace (negb (wholly_known (Val ms (SSet t) l)) && Nat.ltb 1 (List.length l)) with false.
    2:{ symmetry. apply andb_false_iff. destruct K as [K|K]; [right; apply Nat.ltb_ge; exact K|left; rewrite K; reflexivity]. }
    split; [reflexivity|]. split; [reflexivity|]. apply F. intro m. tauto.
  - assert (L : List.length (ty_args (type_of (Val ms STuple l))) = List.length l).
    { cbn. induction l as [|[k x] l IH]; [reflexivity|]. cbn. rewrite IH. reflexivity. }
    eexists. unfold call. cbn. cbn in L. rewrite L.
    split; [reflexivity|]. split; [reflexivity|]. apply F. intro m. cbn. rewrite filter_In. cbn. tauto.
  - assert (L : List.length (ty_args (type_of (Val ms SObj l))) = List.length l).
    { cbn. induction l as [|[k x] l IH]; [reflexivity|]. cbn. rewrite IH. reflexivity. }
    eexists. unfold call. cbn. cbn in L. rewrite L.
    split; [reflexivity|]. split; [reflexivity|]. apply F. intro m. cbn. rewrite filter_In. cbn. tauto.
  - destruct K as [-> | ->]; (eexists; split; [reflexivity|]; split; [reflexivity|]; apply F; intro m; cbn; rewrite filter_In; cbn; tauto).
Qed.
Print Assumptions C68_length.
Theorem C68_length_unknown : forall g early v, length_unknown v ->
  exists r, call early (length_func g) [v] = Ok r /\ is_known r = false /\ forall m, In m (marks_of r) <-> In m (marks_of v).
Proof.
  intros g early v H.
  assert (F : forall ms ms', (forall m, In m ms' <-> In m ms) -> forall m, In m (union ms' []) <-> In m ms).
  { intros ms ms' X m. rewrite union_In, X. cbn. tauto. }
  destruct H as [ms k ts p K|ms t l L K].
  - decompose [or] K; subst; (eexists; split; [reflexivity|]; split; [reflexivity|]; apply F; intro m; cbn; try rewrite filter_In; cbn; tauto).
  - eexists. unfold call. cbn -[wholly_known Nat.ltb]. unfold length_val. cbn [shape_of elems marks_of]. rewrite K.
    replace (negb false && Nat.ltb 1 (List.length l)) with true by (symmetry; apply andb_true_iff; split; [reflexivity|apply Nat.ltb_lt; exact L]).
    split; [reflexivity|]. split; [reflexivity|]. apply F. intro m. tauto.
Qed.
Print Assumptions C68_length_unknown.
(* Numbers, booleans and null have none. *)
Theorem C68_length_refused : forall g early v, is_null v = true \/ type_of v = numt \/ type_of v = boolt ->
  exists e, call early (length_func g) [v] = Err e.
Proof.
  intros g early v H. unfold call. cbn -[is_null type_of]. destruct (is_null v) eqn:N; [eexists; reflexivity|].
  destruct H as [H|[H|H]]; [discriminate| |]; rewrite H; cbn; eexists; reflexivity.
Qed.
Print Assumptions C68_length_refused.

(* The sign of a whole number; fractions are refused. *)
Theorem C68_signum : forall early ms n z, number_is n z ->
  exists r, call early signum_func [Val ms (SNum n) []] = Ok r /\ shape_of r = SNum (int_val (Z.sgn z)) /\
    forall m, In m (marks_of r) <-> In m ms.
Proof.
  intros early ms n z H. apply to_int_spec in H. eexists. split.
  - unfold call, signum_func. cbn -[to_int]. rewrite H. reflexivity.
  - split.
    + cbn. destruct (z <? 0)%Z eqn:A; [|destruct (0 <? z)%Z eqn:B]; destruct z; try reflexivity; discriminate.
    + intro m. rewrite marks_with. cbn. rewrite !app_nil_r. tauto.
Qed.
Print Assumptions C68_signum.
Theorem C68_signum_refused : forall early ms n, (forall z, ~ number_is n z) -> exists e, call early signum_func [Val ms (SNum n) []] = Err e.
Proof.
  intros early ms n H. unfold call, signum_func. cbn -[to_int].
  destruct (to_int_cases n) as [(z & X)|(e & X)]; rewrite X.
  - exfalso. exact (H z (proj1 (to_int_spec _ _) X)).
  - eexists. reflexivity.
Qed.
Print Assumptions C68_signum_refused.

Example C68_sample :
  call no_marks (length_func (fun s => Z.of_nat (String.length s))) [Val ["m"] (SMap str) [("a", str_val "x"); ("b", unknown str)]]
    = Ok (Val ["m"] (SNum (int_val 2)) []) /\
  call no_marks (length_func (fun s => Z.of_nat (String.length s))) [plain (SUnknown (Ty KTuple [("", str); ("", numt)]) "")]
    = Ok (num_val (int_val 2)) /\
  call no_marks signum_func [num_val (Fin 64 (mkD (-24) 3))] = Ok (num_val (int_val (-1))) /\
  (exists e, call no_marks signum_func [num_val (Fin 64 (mkD 1 1))] = Err e).
Proof. repeat split; try reflexivity. eexists. reflexivity. Qed.
