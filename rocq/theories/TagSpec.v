(* What tag2 should return: the conventional struct tags of package reflect, a sequence of
   key:"value" entries. *)

From Verif Require Import Base.

Fixpoint chars (P : ascii -> Prop) (s : string) : Prop :=
  match s with "" => True | String c s' => P c /\ chars P s' end.

(* "Each key is a non-empty string consisting of non-control characters other than space,
   quote, and colon." *)
Definition key_char (c : ascii) : Prop :=
  32 < nat_of_ascii c /\ c <> """"%char /\ c <> ":"%char /\ nat_of_ascii c <> 127.
Definition tag_key (k : string) : Prop := k <> "" /\ chars key_char k.

(* "Each value is quoted using quote characters and Go string literal syntax": the text
   between the quotes has no quote that is not escaped.  (Superset of the Go syntax.) *)
Inductive quoted_text : string -> Prop :=
| quoted_nil : quoted_text ""
| quoted_plain c s : c <> """"%char -> c <> "\"%char -> quoted_text s -> quoted_text (String c s)
| quoted_escape c s : quoted_text s -> quoted_text (String "\" (String c s)).

Fixpoint blanks (n : nat) : string := match n with 0 => "" | S n' => String " " (blanks n') end.

Definition entry_text (k v : string) : string := k +++ ":""" +++ v +++ """".

(* The tag text of a list of entries: entries are separated by one or more spaces, with
   any number of them at both ends. *)
Inductive tag_text : list (string * string) -> string -> Prop :=
| tag_text_nil n : tag_text [] (blanks n)
| tag_text_last n k v m : tag_key k -> quoted_text v ->
    tag_text [(k, v)] (blanks n +++ entry_text k v +++ blanks m)
| tag_text_more n k v l s : tag_key k -> quoted_text v -> tag_text l s ->
    tag_text ((k, v) :: l) (blanks n +++ entry_text k v +++ " " +++ s).

(* A value that stands for itself: no escapes, no white space. *)
Definition plain_char (c : ascii) : Prop := 32 < nat_of_ascii c /\ c <> """"%char /\ c <> "\"%char.
Definition plain_value (v : string) : Prop := chars plain_char v.

Definition no_comma (s : string) : Prop := chars (fun c => c <> ","%char) s.
(* The name and the kind in the value of the hcl entry. *)
Inductive name_kind : string -> string -> string -> Prop :=
| only_name v : no_comma v -> name_kind v v ""
| name_and_kind n k : no_comma n -> name_kind (n +++ "," +++ k) n k.

(* hcl in any case. *)
Definition looks_hcl (k : string) : Prop :=
  exists a b c, k = String a (String b (String c "")) /\
    (a = "h"%char \/ a = "H"%char) /\ (b = "c"%char \/ b = "C"%char) /\ (c = "l"%char \/ c = "L"%char).

(* An entry that cannot be mistaken for the hcl entry: its key is not some HCL or Hcl, and
   its value does not end with a word hcl: *)
Definition white (c : ascii) : Prop := nat_of_ascii c = 32 \/ (9 <= nat_of_ascii c /\ nat_of_ascii c <= 13).
Definition unlike_hcl (e : string * string) : Prop :=
  ~ looks_hcl (fst e) /\
  forall p w h, white w -> looks_hcl h -> snd e <> p +++ String w (h +++ ":").
