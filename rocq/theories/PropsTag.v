(* C29: the hcl entry of a struct tag. *)

From Verif Require Import Base CtyModel HclModel TagModel TagSpec TagProofs.
From Coq Require Import Lia.

(* C29 in full: for every conventional tag, the name and kind of its first hcl entry, and
   empty strings if there is none. *)
Definition C29_full : Prop :=
  (forall l1 v l2 tag name kind, tag_text (l1 ++ ("hcl", v) :: l2) tag ->
     (forall e, In e l1 -> fst e <> "hcl") -> name_kind v name kind -> tag2 tag = Ok (name, kind)) /\
  (forall l tag, tag_text l tag -> (forall e, In e l -> fst e <> "hcl") -> tag2 tag = Ok ("", "")).

(* It holds if the value has no white space and no escape, and no earlier entry looks like an
   hcl entry: no key HCL, Hcl, ..., no value that ends with the word "hcl:". *)
Theorem C29_tag_partial : forall l1 v l2 tag name kind,
  tag_text (l1 ++ ("hcl", v) :: l2) tag -> Forall unlike_hcl l1 ->
  plain_value v -> name_kind v name kind -> tag2 tag = Ok (name, kind).
Proof. exact tag2_found. Qed.
Print Assumptions C29_tag_partial.

Theorem C29_absent_partial : forall l tag,
  tag_text l tag -> Forall unlike_hcl l -> tag2 tag = Ok ("", "").
Proof. exact tag2_absent. Qed.
Print Assumptions C29_absent_partial.

(* hcltag gives the name alone. *)
Theorem C29_name_partial : forall tag,
  (forall l1 v l2 name kind, tag_text (l1 ++ ("hcl", v) :: l2) tag -> Forall unlike_hcl l1 ->
     plain_value v -> name_kind v name kind -> hcltag tag = Ok name) /\
  (forall l, tag_text l tag -> Forall unlike_hcl l -> hcltag tag = Ok "").
Proof.
  intro tag. unfold hcltag. split.
  - intros l1 v l2 name kind T U P N. rewrite (tag2_found _ _ _ _ _ _ T U P N). reflexivity.
  - intros l T U. rewrite (tag2_absent _ _ T U). reflexivity.
Qed.
Print Assumptions C29_name_partial.

Ltac not_hcl := let H := fresh in
  intros (? & ? & ? & H & _); discriminate H.
Lemma key_by_char : forall k, k <> "" -> chars (fun c => key_char c) k -> tag_key k.
Proof. intros k H1 H2. split; assumption. Qed.
Ltac chars_tac := cbn; repeat split; try discriminate; cbn; try lia.
Ltac quoted_tac := repeat (apply quoted_plain; [discriminate|discriminate|]); apply quoted_nil.

Definition tag_example : string := "json:""name,omitempty""  hcl:""name,optional"" doc:""some words""".
Lemma tag_example_text :
  tag_text [("json", "name,omitempty"); ("hcl", "name,optional"); ("doc", "some words")] tag_example.
Proof.
  apply (tag_text_more 0 "json" "name,omitempty" _ " hcl:""name,optional"" doc:""some words""").
  { split; [discriminate|chars_tac]. } { quoted_tac. }
  apply (tag_text_more 1 "hcl" "name,optional" _ "doc:""some words""").
  { split; [discriminate|chars_tac]. } { quoted_tac. }
  apply (tag_text_last 0 "doc" "some words" 0).
  { split; [discriminate|chars_tac]. } { quoted_tac. }
Qed.

Lemma append_len : forall a b, String.length (a +++ b) = String.length a + String.length b.
Proof. induction a; intro b; cbn; [reflexivity|]. rewrite IHa. reflexivity. Qed.

(* The last character of a value: enough to see that it does not end with "hcl:". *)
Fixpoint ends (c : ascii) (s : string) : bool :=
  match s with "" => false | String d "" => Ascii.eqb d c | String _ s' => ends c s' end.
Lemma ends_app : forall a c, ends c (a +++ String c "") = true.
Proof.
  induction a as [|d a IH]; intro c; cbn; [apply Ascii.eqb_refl|].
  rewrite IH. destruct a; reflexivity.
Qed.
Lemma unlike_by_end : forall k v, ~ looks_hcl k -> ends ":" v = false -> unlike_hcl (k, v).
Proof.
  intros k v K V. split; [exact K|]. cbn [snd]. intros p w h _ _ E. subst v.
  replace (p +++ String w (h +++ ":")) with ((p +++ String w h) +++ String ":" "") in V
    by (rewrite append_assoc; reflexivity).
  rewrite ends_app in V. discriminate.
Qed.

Example C29_nonvacuous : tag2 tag_example = Ok ("name", "optional").
Proof.
  apply (C29_tag_partial [("json", "name,omitempty")] "name,optional" [("doc", "some words")]).
  - exact tag_example_text.
  - constructor; [apply unlike_by_end; [not_hcl|reflexivity]|constructor].
  - chars_tac.
  - apply (name_and_kind "name" "optional"). chars_tac.
Qed.

(* C29 is false: a value with a space loses its tail and its last letter; the key HCL is taken
   for hcl; a word "hcl:" at the end of another value makes the function panic. *)
Theorem C29_refuted : exists v tag name kind,
  tag_text [("hcl", v)] tag /\ name_kind v name kind /\ tag2 tag = Ok ("m", "") /\ name = "my name".
Proof.
  exists "my name,optional", "hcl:""my name,optional""", "my name", "optional".
  split.
  { apply (tag_text_last 0 "hcl" "my name,optional" 0); [split; [discriminate|chars_tac]|quoted_tac]. }
  split; [apply (name_and_kind "my name" "optional"); chars_tac|].
  split; reflexivity.
Qed.
Print Assumptions C29_refuted.

Theorem C29_case_refuted : exists v1 v2 tag, tag_text [("HCL", v1); ("hcl", v2)] tag /\
  v1 <> v2 /\ tag2 tag = Ok (v1, "").
Proof.
  exists "a", "b", "HCL:""a"" hcl:""b""". split.
  { apply (tag_text_more 0 "HCL" "a" _ "hcl:""b"""); [split; [discriminate|chars_tac]|quoted_tac|].
    apply (tag_text_last 0 "hcl" "b" 0); [split; [discriminate|chars_tac]|quoted_tac]. }
  split; [discriminate|reflexivity].
Qed.
Print Assumptions C29_case_refuted.

Theorem C29_panic_refuted : exists k v tag, tag_text [(k, v); ("hcl", "x")] tag /\
  k <> "hcl" /\ exists m, tag2 tag = Panic m.
Proof.
  exists "doc", "see hcl:", "doc:""see hcl:"" hcl:""x""". split.
  { apply (tag_text_more 0 "doc" "see hcl:" _ "hcl:""x"""); [split; [discriminate|chars_tac]|quoted_tac|].
    apply (tag_text_last 0 "hcl" "x" 0); [split; [discriminate|chars_tac]|quoted_tac]. }
  split; [discriminate|]. eexists. reflexivity.
Qed.
Print Assumptions C29_panic_refuted.
