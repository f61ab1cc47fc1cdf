(* The properties of the encoding functions. *)

From Verif Require Import Base CtyModel FuncModel FuncSpec FuncProofs EncModel EncSpec EncProofs.
From Coq Require Import NArith Lia.

Definition nothing (l : list (param * value)) : list mark := [].

Lemma call_string : forall nfc f early ms s, exists r,
  call early (on_string nfc f) [Val ms (SStr s) []] = Ok r /\ shape_of r = SStr (nfc (f s)) /\ forall m, In m (marks_of r) <-> In m ms.
Proof.
  intros nfc f early ms s. eexists. split; [reflexivity|]. split; [reflexivity|].
  intro m. rewrite marks_with. cbn. rewrite !app_nil_r. tauto.
Qed.

(* ----- C70: base 64 ----- *)

(* The result is the text of the bytes in base 64, with no bit set in what is left over. *)
Theorem C70_encode : forall nfc early ms s, ascii_stays nfc -> exists r t rest,
  call early (base64encode_func nfc) [Val ms (SStr s) []] = Ok r /\ shape_of r = SStr t /\
  base64 t s rest /\ (forall b, In b rest -> b = false) /\ forall m, In m (marks_of r) <-> In m ms.
Proof.
  intros nfc early ms s N. destruct (call_string nfc encode64 early ms s) as (r & E & S & M). destruct (encode_spec s) as (rest & B & Z).
  exists r, (encode64 s), rest. rewrite (N _ (encode_ascii s)) in S. auto.
Qed.
Print Assumptions C70_encode.

(* Exactly the texts that say something in UTF-8 are decoded, line ends and leftover bits aside. *)
Theorem C70_decode : forall nfc quoted early ms t s rest, base64 (one_line t) s rest -> utf8 s -> exists r,
  call early (base64decode_func nfc quoted) [Val ms (SStr t) []] = Ok r /\ shape_of r = SStr (nfc s) /\ forall m, In m (marks_of r) <-> In m ms.
Proof.
  intros nfc quoted early ms t s rest B U. apply utf8_iff in U.
  assert (D : decode64 [] t = Some s) by (apply decode_iff; eauto).
  eexists. split; [unfold call, base64decode_func; cbn -[decode64 utf8_valid redact]; rewrite D, U; reflexivity|].
  split; [reflexivity|]. intro m. rewrite !marks_with. cbn. rewrite filter_In. cbn. tauto.
Qed.
Print Assumptions C70_decode.
Theorem C70_only : forall nfc quoted early ms t r, call early (base64decode_func nfc quoted) [Val ms (SStr t) []] = Ok r ->
  exists s rest, base64 (one_line t) s rest /\ utf8 s.
Proof.
  intros nfc quoted early ms t r H. unfold call, base64decode_func in H. cbn -[decode64 utf8_valid redact] in H.
  destruct (decode64 [] t) as [s|] eqn:D; [|discriminate]. destruct (utf8_valid s) eqn:U; [|discriminate].
  apply decode_iff in D. destruct D as (rest & D). apply utf8_iff in U. eauto.
Qed.
Print Assumptions C70_only.
(* A text says one thing at most. *)
Theorem C70_one_meaning : forall t s s' rest rest', base64 t s rest -> base64 t s' rest' -> s = s'.
Proof.
  intros t s s' rest rest' B B'. assert (L := proj1 (base64_line _ _ _ B)).
  assert (D : decode64 [] t = Some s) by (apply decode_iff; exists rest; rewrite L; exact B).
  assert (D' : decode64 [] t = Some s') by (apply decode_iff; exists rest'; rewrite L; exact B'). congruence.
Qed.
Print Assumptions C70_one_meaning.

(* Encoding and decoding gives the string back. *)
Theorem C70_round_trip : forall nfc quoted early ms s, ascii_stays nfc -> utf8 s -> nfc s = s -> exists t r,
  call early (base64encode_func nfc) [Val ms (SStr s) []] = Ok t /\
  call early (base64decode_func nfc quoted) [t] = Ok r /\ shape_of r = SStr s /\ forall m, In m (marks_of r) <-> In m ms.
Proof.
  intros nfc quoted early ms s N U S. destruct (C70_encode nfc early ms s N) as (t & w & rest & E & Sh & B & _ & M).
  assert (T : t = Val (marks_of t) (SStr w) []).
  { unfold call, base64encode_func in E. cbn -[encode64] in E. injection E as <-. cbn in Sh. injection Sh as <-. reflexivity. }
  destruct (C70_decode nfc quoted early (marks_of t) w s rest) as (r & E' & S' & M'); [rewrite (proj1 (base64_line _ _ _ B)); exact B|exact U|].
  exists t, r. split; [exact E|]. rewrite T at 1. split; [exact E'|]. rewrite S in S'. split; [exact S'|]. intro m. rewrite M'. apply M.
Qed.
Print Assumptions C70_round_trip.

(* The message about a sensitive text does not depend on it. *)
Theorem C70_redacted : forall nfc quoted early ms t t' e e', In sensitive_mark ms ->
  (forall s rest, ~ base64 (one_line t) s rest) -> (forall s rest, ~ base64 (one_line t') s rest) ->
  call early (base64decode_func nfc quoted) [Val ms (SStr t) []] = Err e ->
  call early (base64decode_func nfc quoted) [Val ms (SStr t') []] = Err e' -> e = e'.
Proof.
  intros nfc quoted early ms t t' e e' I N N' H H'. unfold call, base64decode_func in H, H'. cbn -[decode64 utf8_valid redact] in H, H'.
  destruct (decode64 [] t) as [s|] eqn:D; [apply decode_iff in D; destruct D as (rest & D); destruct (N s rest D)|].
  destruct (decode64 [] t') as [s|] eqn:D'; [apply decode_iff in D'; destruct D' as (rest & D'); destruct (N' s rest D')|].
  unfold redact in H, H'. assert (X : has_mark sensitive_mark ms = true).
  { unfold has_mark. apply existsb_exists. exists sensitive_mark. split; [exact I|apply String.eqb_refl]. }
  rewrite X in H, H'. congruence.
Qed.
Print Assumptions C70_redacted.

(* Bytes of another encoding come back too, as far as the encoding gives them back. *)
Theorem C70_text : forall nfc quoted encoding iana iana_name encoder decoder early ms ms' s n (e : encoding) b,
  ascii_stays nfc -> iana n = Some e -> encoder e s = Some b -> decoder e b = Some s -> utf8 s -> contains s rune_error = false -> nfc s = s ->
  exists t r, call early (textencodebase64_func nfc quoted encoding iana iana_name encoder) [Val ms (SStr s) []; Val ms' (SStr n) []] = Ok t /\
    call early (textdecodebase64_func nfc quoted encoding iana iana_name decoder) [t; Val ms' (SStr n) []] = Ok r /\
    shape_of r = SStr s /\ forall m, In m (marks_of r) <-> In m ms \/ In m ms'.
Proof.
  intros nfc quoted encoding iana iana_name encoder decoder early ms ms' s n e b N I En De U C S. apply utf8_iff in U.
  set (l := [(plain_param str, Val ms (SStr s) []); (plain_param str, Val ms' (SStr n) [])]).
  assert (E1 : call early (textencodebase64_func nfc quoted encoding iana iana_name encoder) [Val ms (SStr s) []; Val ms' (SStr n) []]
               = Ok (with_marks (flat_map taken_marks l) (string_val nfc (encode64 b)))).
  { unfold call, textencodebase64_func. cbn -[encode64 with_marks flat_map]. rewrite I, En. reflexivity. }
  set (t := with_marks (flat_map taken_marks l) (string_val nfc (encode64 b))) in *.
  assert (M : forall m, In m (marks_of t) <-> In m ms \/ In m ms').
  { intro m. unfold t. rewrite marks_with. cbn. rewrite !app_nil_r, in_app_iff. tauto. }
  assert (T : t = Val (marks_of t) (SStr (encode64 b)) []).
  { unfold t. cbn -[encode64 flat_map]. rewrite (N _ (encode_ascii b)). reflexivity. }
  assert (E2 : forall mt, exists r, call early (textdecodebase64_func nfc quoted encoding iana iana_name decoder) [Val mt (SStr (encode64 b)) []; Val ms' (SStr n) []] = Ok r /\
    shape_of r = SStr s /\ forall m, In m (marks_of r) <-> In m mt \/ In m ms').
  { intro mt. eexists. split.
    - unfold call, textdecodebase64_func. cbn -[encode64 decode64 with_marks flat_map contains_rune_error].
      rewrite I, decode_encode, De. unfold contains_rune_error. rewrite U, C. reflexivity.
    - split; [cbn -[flat_map]; rewrite S; reflexivity|]. intro m. rewrite marks_with. cbn. rewrite !app_nil_r, in_app_iff. tauto. }
  destruct (E2 (marks_of t)) as (r & Er & Sr & Mr). exists t, r. split; [exact E1|]. split; [rewrite T; exact Er|]. split; [exact Sr|].
  intro m. rewrite Mr, M. tauto.
Qed.
Print Assumptions C70_text.
(* What is refused: names of no encoding, texts that the encoding cannot say, and what is not a
   text of it; the message has the name of the encoding in the index, if it has one there. *)
Definition called {encoding : Type} (iana_name : encoding -> option string) (e : encoding) (given name : string) : Prop :=
  iana_name e = Some name \/ iana_name e = None /\ name = given.
Theorem C70_text_refused : forall nfc quoted encoding iana iana_name encoder decoder early ms ms' s n,
  let encode := call early (textencodebase64_func nfc quoted encoding iana iana_name encoder) [Val ms (SStr s) []; Val ms' (SStr n) []] in
  let decode := call early (textdecodebase64_func nfc quoted encoding iana iana_name decoder) [Val ms (SStr s) []; Val ms' (SStr n) []] in
  let unsupported := Err (quoted n +++ " is not a supported IANA encoding name or alias in this Terraform version") in
  (iana n = None -> encode = unsupported /\ decode = unsupported) /\
  (forall (e : encoding) name, iana n = Some e -> called iana_name e n name ->
    (encoder e s = None -> encode = Err ("the given string contains characters that cannot be represented in " +++ name)) /\
    (~ (exists b rest, base64 (one_line s) b rest) -> decode = Err "the given value is has an invalid base64 symbol") /\
    (forall b rest, base64 (one_line s) b rest -> (decoder e b = None \/ exists d, decoder e b = Some d /\ (~ utf8 d \/ contains d rune_error = true)) ->
      decode = Err ("the given string contains symbols that are not defined for " +++ name))).
Proof.
  intros nfc quoted encoding iana iana_name encoder decoder early ms ms' s n encode decode unsupported.
  unfold encode, decode, unsupported, call, textencodebase64_func, textdecodebase64_func.
  split; [intro I; split; cbn -[decode64 encode64]; rewrite I; reflexivity|].
  intros e name I C. assert (N : enc_name encoding iana_name e n = name).
  { unfold enc_name. destruct C as [->|[-> ->]]; reflexivity. }
  split; [|split].
  - intro E. cbn -[decode64 encode64 enc_name]. rewrite I, E, N. reflexivity.
  - intro E. cbn -[decode64 encode64 enc_name]. rewrite I. destruct (decode64 [] s) as [b|] eqn:D; [|reflexivity].
    destruct E. exists b. apply decode_iff. exact D.
  - intros b rest B [E|(d & E & X)]; cbn -[decode64 encode64 enc_name contains_rune_error]; rewrite I, (proj2 (decode_iff _ _) (ex_intro _ rest B)), E.
    + rewrite N. reflexivity.
    + assert (R : contains_rune_error d = true).
      { unfold contains_rune_error. destruct X as [X| ->]; [|apply orb_true_r]. destruct (utf8_valid d) eqn:U; [|reflexivity]. apply utf8_iff in U. contradiction. }
      rewrite R, N. reflexivity.
Qed.
Print Assumptions C70_text_refused.

(* base64gzip gives the compressed bytes in base 64. *)
Theorem C70_gzip : forall nfc gzip early ms s, ascii_stays nfc -> exists r t rest,
  call early (base64gzip_func nfc gzip) [Val ms (SStr s) []] = Ok r /\ shape_of r = SStr t /\ base64 t (gzip s) rest /\
  forall m, In m (marks_of r) <-> In m ms.
Proof.
  intros nfc gzip early ms s N. destruct (call_string nfc (fun s => encode64 (gzip s)) early ms s) as (r & E & S & M).
  destruct (encode_spec (gzip s)) as (rest & B & _). exists r, (encode64 (gzip s)), rest. rewrite (N _ (encode_ascii (gzip s))) in S. auto.
Qed.
Print Assumptions C70_gzip.

(* Decoding is not one to one: the bits left over are ignored. *)
Example C70_leftover : forall nfc quoted early, exists t t', t <> t' /\
  exists r, call early (base64decode_func nfc quoted) [plain (SStr t)] = Ok r /\ call early (base64decode_func nfc quoted) [plain (SStr t')] = Ok r.
Proof. intros nfc quoted early. exists "TQ==", "TR==". split; [discriminate|]. eexists. split; reflexivity. Qed.

Example C70_sample : forall quoted,
  call nothing (base64encode_func id) [Val ["m"] (SStr "Man!") []] = Ok (Val ["m"] (SStr "TWFuIQ==") []) /\
  call nothing (base64decode_func id quoted) [Val ["m"] (SStr ("TWFu" +++ String "010" "IQ==")) []] = Ok (Val ["m"] (SStr "Man!") []) /\
  (exists e, call nothing (base64decode_func id quoted) [plain (SStr "TWFuIQ=")] = Err e) /\
  (exists e, call nothing (base64decode_func id quoted) [plain (SStr "/w==")] = Err e) /\
  utf8 (String "226" (String "130" (String "172" ""))).
Proof.
  intro quoted. repeat split; try reflexivity; try (eexists; reflexivity). apply utf8_iff. reflexivity.
Qed.

(* ----- C71: urlencode and the hashes ----- *)

(* A reader of the query gets the string back, and the text has no character with another meaning. *)
Theorem C71_urlencode : forall nfc early ms s, ascii_stays nfc -> exists r t,
  call early (urlencode_func nfc) [Val ms (SStr s) []] = Ok r /\ shape_of r = SStr t /\
  form_text t s /\ (forall s', form_text t s' -> s' = s) /\ all_chars safe_char t /\ forall m, In m (marks_of r) <-> In m ms.
Proof.
  intros nfc early ms s N. destruct (call_string nfc query_escape early ms s) as (r & E & S & M). exists r, (query_escape s).
  rewrite (N _ (safe_ascii _ (escape_safe s))) in S. split; [exact E|]. split; [exact S|]. split; [apply escape_form|].
  split; [intros s' H; exact (form_unique _ _ H _ (escape_form s))|]. split; [apply escape_safe|exact M].
Qed.
Print Assumptions C71_urlencode.
(* Different strings have different texts. *)
Theorem C71_injective : forall nfc early ms ms' s s' r r', ascii_stays nfc ->
  call early (urlencode_func nfc) [Val ms (SStr s) []] = Ok r -> call early (urlencode_func nfc) [Val ms' (SStr s') []] = Ok r' ->
  shape_of r = shape_of r' -> s = s'.
Proof.
  intros nfc early ms ms' s s' r r' N E E' H.
  destruct (C71_urlencode nfc early ms s N) as (r0 & t & E0 & S & F & U & _). rewrite E in E0. injection E0 as <-.
  destruct (C71_urlencode nfc early ms' s' N) as (r0 & t' & E0 & S' & F' & _). rewrite E' in E0. injection E0 as <-.
  assert (t = t') by congruence. subst t'. symmetry. exact (U s' F').
Qed.
Print Assumptions C71_injective.

(* A hash is given in hexadecimal or in base 64. *)
Theorem C71_hash_hex : forall nfc h early ms s, ascii_stays nfc -> exists r t,
  call early (hash_func nfc h encode_hex) [Val ms (SStr s) []] = Ok r /\ shape_of r = SStr t /\ hex_text t (h s) /\ forall m, In m (marks_of r) <-> In m ms.
Proof.
  intros nfc h early ms s N. destruct (call_string nfc (fun s => encode_hex (h s)) early ms s) as (r & E & S & M). exists r, (encode_hex (h s)).
  rewrite (N _ (hex_ascii _ _ (hex_spec (h s)))) in S. split; [exact E|]. split; [exact S|]. split; [apply hex_spec|exact M].
Qed.
Print Assumptions C71_hash_hex.
Theorem C71_hash_base64 : forall nfc h early ms s, ascii_stays nfc -> exists r t rest,
  call early (hash_func nfc h encode64) [Val ms (SStr s) []] = Ok r /\ shape_of r = SStr t /\ base64 t (h s) rest /\
  (forall b, In b rest -> b = false) /\ forall m, In m (marks_of r) <-> In m ms.
Proof.
  intros nfc h early ms s N. destruct (call_string nfc (fun s => encode64 (h s)) early ms s) as (r & E & S & M).
  destruct (encode_spec (h s)) as (rest & B & Z). exists r, (encode64 (h s)), rest. rewrite (N _ (encode_ascii (h s))) in S. auto.
Qed.
Print Assumptions C71_hash_base64.

Example C71_sample :
  call nothing (urlencode_func id) [Val ["m"] (SStr "a b&c=~") []] = Ok (Val ["m"] (SStr "a+b%26c%3D~") []) /\
  call nothing (hash_func id (fun s => String "255" s) encode_hex) [str_val "A"] = Ok (str_val "ff41").
Proof. split; reflexivity. Qed.
