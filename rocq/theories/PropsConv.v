(* Properties C53 and C54: package convert and the command fmtconvert. *)

From Verif Require Import Base CtyModel CtySpec HclModel HclSpec JsonModel JsonSpec JsonProofs JsonText JsonOnly ConvModel ConvProofs.
From Coq Require Import Lia.

(* ----- C53: HCL to JSON to HCL ----- *)

(* C53 in full, for HCL: whatever the document says, it says after the two steps. *)
Definition C53_full : Prop := forall raw m j t v, hcl_unmarshal raw = Ok (NMap m) ->
  hcl_to_json raw = Ok j -> json_to_hcl j = Ok t -> hcl_unmarshal t = Ok v -> same (NMap m) v.

(* It holds for the data that HCL text can hold ([body_map], as in C24) and JSON too
   ([exact]); the steps succeed. *)
Theorem C53_hcl_json_hcl_partial : forall raw m, hcl_unmarshal raw = Ok (NMap m) ->
  m <> [] -> body_map m -> exact (NMap m) ->
  exists j t v, hcl_to_json raw = Ok j /\ json_to_hcl j = Ok t /\ hcl_unmarshal t = Ok v /\ same (NMap m) v.
Proof. exact through_json. Qed.
Print Assumptions C53_hcl_json_hcl_partial.

Definition doc : string := "b = [1, true, ""x""]" +++ nl +++ "a ""l"" {" +++ nl +++ "z = -7" +++ nl +++ "n = null" +++ nl +++ "}" +++ nl.
Example C53_sample :
  hcl_unmarshal doc = Ok (NMap [("b", NList [NInt 1; NBool true; NStr "x"]); ("a", NMap [("l", NMap [("z", NInt (-7)); ("n", NNil)])])])
  /\ hcl_to_json doc = Ok "{""a"":{""l"":{""n"":null,""z"":-7}},""b"":[1,true,""x""]}"
  /\ (do j <- hcl_to_json doc; do t <- json_to_hcl j; hcl_unmarshal t)
     = Ok (NMap [("b", NList [NInt 1; NBool true; NStr "x"]); ("a", NMap [("l", NMap [("n", NNil); ("z", NInt (-7))])])]).
Proof. vm_compute. repeat split. Qed.

(* It is false in full: an empty list becomes null, *)
Definition there_and_back (raw : string) : result native := do j <- hcl_to_json raw; do t <- json_to_hcl j; hcl_unmarshal t.
Lemma steps : forall raw v, there_and_back raw = Ok v -> exists j t,
  hcl_to_json raw = Ok j /\ json_to_hcl j = Ok t /\ hcl_unmarshal t = Ok v.
Proof.
  intros raw v H. unfold there_and_back in H. rewrite bindr_Ok in H. destruct H as (j & Ej & H). rewrite bindr_Ok in H.
  destruct H as (t & Et & H). exists j, t. auto.
Qed.
Theorem C53_empty_list_refuted : exists raw j t, hcl_unmarshal raw = Ok (NMap [("a", NNilList)])
  /\ hcl_to_json raw = Ok j /\ json_to_hcl j = Ok t /\ hcl_unmarshal t = Ok (NMap [("a", NNil)]).
Proof.
  exists ("a = []" +++ nl).
  destruct (steps ("a = []" +++ nl) (NMap [("a", NNil)])) as (j & t & H); [vm_compute; reflexivity|].
  exists j, t. split; [vm_compute; reflexivity|exact H].
Qed.
Print Assumptions C53_empty_list_refuted.

(* integers of more than 53 bits change, *)
Theorem C53_large_int_refuted : exists raw j t, hcl_unmarshal raw = Ok (NMap [("a", NInt64 9007199254740993)])
  /\ hcl_to_json raw = Ok j /\ json_to_hcl j = Ok t /\ hcl_unmarshal t = Ok (NMap [("a", NInt64 9007199254740992)]).
Proof.
  set (raw := "a = 9007199254740993" +++ nl). exists raw.
  destruct (steps raw (NMap [("a", NInt64 9007199254740992)])) as (j & t & H); [vm_compute; reflexivity|].
  exists j, t. split; [vm_compute; reflexivity|exact H].
Qed.
Print Assumptions C53_large_int_refuted.

(* and so do strings with escapes. *)
Theorem C53_string_refuted : exists raw j t s s', s <> s' /\ hcl_unmarshal raw = Ok (NMap [("a", NStr s)])
  /\ hcl_to_json raw = Ok j /\ json_to_hcl j = Ok t /\ hcl_unmarshal t = Ok (NMap [("a", NStr s')]).
Proof.
  set (raw := "a = ""C:\\new""" +++ nl). exists raw.
  destruct (steps raw (NMap [("a", NStr ("C:" +++ nl +++ "ew"))])) as (j & t & H); [vm_compute; reflexivity|].
  exists j, t, "C:\new", ("C:" +++ nl +++ "ew"). split; [discriminate|]. split; [vm_compute; reflexivity|exact H].
Qed.
Print Assumptions C53_string_refuted.

(* The empty document becomes a text that cannot be read back: the decoder panics on it. *)
Theorem C53_empty_refuted : exists raw j t e, hcl_unmarshal raw = Ok (NMap []) /\ hcl_to_json raw = Ok j /\
  json_to_hcl j = Ok t /\ hcl_unmarshal t = Panic e.
Proof. exists "{}", "{}", (nl +++ "  " +++ nl), "index out of range". repeat split; vm_compute; reflexivity. Qed.
Print Assumptions C53_empty_refuted.

(* ----- C53: JSON to YAML to JSON ----- *)

Section Yaml.
Variable yaml_marshal : native -> result string.
Variable yaml_unmarshal : string -> result native.

(* yaml.v3 is not modelled: whenever it reads back the data it wrote (whole numbers may have
   become integers), so does the composition.  Missing: numbers and strings outside
   [writable]. *)
Theorem C53_json_yaml_json_partial : forall raw obj y w, json_unmarshal raw = Ok (NMap obj) -> writable (NMap obj) ->
  json_to_yaml yaml_marshal raw = Ok y -> yaml_unmarshal y = Ok w -> yaml_view (NMap obj) w ->
  exists j v, yaml_to_json yaml_unmarshal y = Ok j /\ json_unmarshal j = Ok v /\ json_view (NMap obj) v.
Proof.
  intros raw obj y w E W Ey Ew Y. destruct (yaml_json _ _ W Y) as [Ww J]. inversion Y; subst.
  destruct (json_round_trip m' Ww) as (j & Ej & Uj). exists j. eexists. split; [unfold yaml_to_json; rewrite Ew; exact Ej|].
  split; [exact Uj|exact J].
Qed.

(* The document null is not preserved, when yaml.v3 writes the nil map as it writes the empty one. *)
Theorem C53_null_refuted : forall y, yaml_marshal NNilMap = Ok y -> yaml_unmarshal y = Ok (NMap []) ->
  json_unmarshal "null" = Ok NNilMap
  /\ exists j, json_to_yaml yaml_marshal "null" = Ok y /\ yaml_to_json yaml_unmarshal y = Ok j /\ json_unmarshal j = Ok (NMap []).
Proof.
  intros y E1 E2. split; [reflexivity|]. exists "{}". split; [unfold json_to_yaml; exact E1|]. split; [|reflexivity].
  unfold yaml_to_json. rewrite E2. reflexivity.
Qed.
End Yaml.
Print Assumptions C53_json_yaml_json_partial.
Print Assumptions C53_null_refuted.

(* encoding/json alone: what it writes it reads, for all the data it can write. *)
Theorem C53_json_round_trip : forall m, writable (NMap m) ->
  exists t v, json_marshal (NMap m) = Ok t /\ json_unmarshal t = Ok v /\ json_view (NMap m) v.
Proof.
  intros m W. destruct (json_round_trip m W) as (t & E & U). exists t, (view (NMap m)). split; [exact E|]. split; [exact U|].
  apply view_correct. exact W.
Qed.
Print Assumptions C53_json_round_trip.

(* Every JSON text of an object is read as what it says: blanks, escapes, names given twice. *)
Theorem C53_json_text : forall s m, json_document s m -> exists w, json_unmarshal s = Ok w /\ json_view (NMap m) w.
Proof. exact document_read. Qed.
Print Assumptions C53_json_text.

(* And nothing else is read: what is read is a JSON text of an object, or null. *)
Theorem C53_json_text_only : forall s w, json_unmarshal s = Ok w ->
  (exists m, json_document s m /\ json_view (NMap m) w)
  \/ (w = NNilMap /\ exists b b', s = b +++ "null" +++ b' /\ blank b /\ blank b').
Proof. exact document_only. Qed.
Print Assumptions C53_json_text_only.

Lemma no_blank : blank "".
Proof. intros [|i] c H; discriminate H. Qed.
Lemma one_blank : forall c, In c [" "; "009"; "010"; "013"]%char -> blank (str1 c).
Proof. intros c H [|[|i]] d G; cbn in G; try discriminate G. congruence. Qed.
Example C53_text_sample : json_document (nl +++ "{" +++ nl +++ quote +++ "\u004A" +++ quote +++ ": 7,""J"":[ ] }") [("J", NList [])].
Proof.
  assert (K : string_text (quote +++ "\u004A" +++ quote) "J").
  { exists "\u004A". split; [reflexivity|]. apply (cs_more "\u004A" "J" "" ""); [|constructor].
    apply (ct_hex "4" "A" 4 10); [left; reflexivity|right; reflexivity|reflexivity|]. apply Nat.ltb_lt. reflexivity. }
  assert (K2 : string_text (quote +++ "J" +++ quote) "J").
  { exists "J". split; [reflexivity|]. apply (cs_more "J" "J" "" ""); [|constructor]. apply ct_plain; [split; apply Nat.leb_le; reflexivity|discriminate|discriminate]. }
  exists nl, ("{" +++ (nl +++ (quote +++ "\u004A" +++ quote) +++ "" +++ ":" +++ " " +++ "7" +++ "") +++ "," +++
    ("" +++ (quote +++ "J" +++ quote) +++ "" +++ ":" +++ "" +++ "[ ]" +++ " ") +++ "}"), "". split; [reflexivity|].
  split; [apply one_blank; cbn; tauto|]. split; [|apply no_blank].
  match goal with |- json_text ("{" +++ ?a +++ "," +++ ?b +++ "}") _ => apply (jt_map (a +++ "," +++ b) [("J", NInt 7); ("J", NList [])]) end.
  - apply mt_more; [|apply mt_one].
    + apply (me nl _ "J" "" " " "7" (NInt 7) ""); [apply one_blank; cbn; tauto|exact K|apply no_blank|apply (one_blank " "); cbn; tauto| |apply no_blank].
      apply (jt_int _ 7); [|unfold in_float64; reflexivity]. left. split; [discriminate|]. split; [|intros r H; discriminate H].
      apply (HclGrammar.dg_more 0 "7" 7); [exists 7; split; reflexivity|constructor].
    + apply (me "" _ "J" "" "" "[ ]" (NList []) " "); [apply no_blank|exact K2|apply no_blank|apply no_blank|apply (jt_no_list " "), (one_blank " "); cbn; tauto|].
      apply (one_blank " "). cbn. tauto.
  - repeat constructor. intros [].
  - intro k. cbn [rev app lookup]. destruct (eq_dec k "J"); reflexivity.
Qed.
Example C53_json_sample : json_unmarshal " { ""a"" : [ 1 , -20, ""x\u0041\n"" ], ""b"" : { }, ""a"" : null } "
  = Ok (NMap [("a", NNil); ("b", NMap [])])
  /\ json_marshal (NMap [("b", NStr ("<" +++ nl +++ quote)); ("a", NList [NF64 (mkD 12 2); NNilMap])])
     = Ok "{""a"":[3,null],""b"":""\u003c\n\""""}".
Proof. vm_compute. split; reflexivity. Qed.

(* ----- C54: the command ----- *)

Definition pair_dec (a b : string * string) : {a = b} + {a <> b}.
Proof. decide equality; apply string_dec. Defined.

Section Command.
Variable yaml_marshal : native -> result string.
Variable yaml_unmarshal : string -> result native.
Variable prog defaults : string.
Variable read_file : string -> result string.
Notation run := (main yaml_marshal yaml_unmarshal prog defaults read_file).

(* Each conversion reads the one format and writes the other. *)
Definition via (r : string -> result native) (w : native -> result string) (raw : string) : result string :=
  match r raw with Ok d => w d | Err e => Err e | Panic e => Panic e end.
Definition conversions : list (string * string * (string -> result string)) :=
  [("json", "yaml", via json_unmarshal yaml_marshal); ("json", "hcl", via json_unmarshal hcl_marshal);
   ("yaml", "json", via yaml_unmarshal json_marshal); ("yaml", "hcl", via yaml_unmarshal hcl_marshal);
   ("hcl", "json", via hcl_unmarshal json_marshal); ("hcl", "yaml", via hcl_unmarshal yaml_marshal)].

(* The formats and the file of a command line, where json and hcl are the default formats. *)
Definition asked (args : list string) (f t : string) (rest : list string) : Prop := flags args "json" "hcl" f t rest.
Definition file_arg (rest : list string) : option string :=
  match rest with [] => None | "" :: _ => None | s :: _ => Some s end.

Theorem C54_converts : forall args f t rest file raw conv, asked args f t rest -> file_arg rest = Some file ->
  read_file file = Ok raw -> In (f, t, conv) conversions ->
  match conv raw with
  | Ok out => run args = mkOut 0 (out +++ nl) ""
  | Err e => run args = mkOut 255 "" ("error: " +++ e +++ nl)
  | Panic e => code (run args) = 2 /\ stdout (run args) = ""
  end.
Proof.
  intros args f t rest file raw conv A F R I. unfold main. rewrite (flags_parse prog defaults _ _ _ _ _ _ A).
  destruct rest as [|s rest]; [discriminate|]. destruct s as [|c s]; [discriminate|]. cbn in F. injection F as <-.
  unfold conversions in I. cbn [In] in I.
  decompose [or] I; try contradiction; match goal with X : (_, _, _) = (_, _, _) |- _ => injection X as <- <- <- end;
    cbn [String.eqb Ascii.eqb Bool.eqb]; rewrite R; cbn [String.eqb Ascii.eqb Bool.eqb];
    unfold json_to_yaml, json_to_hcl, yaml_to_json, yaml_to_hcl, hcl_to_json, hcl_to_yaml, bindr, via;
    match goal with |- match ?r with _ => _ end => destruct r end; try reflexivity; split; reflexivity.
Qed.

(* In all other cases nothing is printed and the status is an error. *)
Theorem C54_otherwise : forall args f t rest, asked args f t rest ->
  (forall conv, ~ In (f, t, conv) conversions)
  \/ file_arg rest = None \/ (exists file e, file_arg rest = Some file /\ read_file file = Err e) ->
  code (run args) <> 0 /\ stdout (run args) = "".
Proof.
  intros args f t rest A H. unfold main. rewrite (flags_parse prog defaults _ _ _ _ _ _ A).
  destruct (String.eqb f t) eqn:Eft; [split; [discriminate|reflexivity]|].
  destruct rest as [|s rest]; [split; [discriminate|reflexivity]|]. destruct s as [|c s]; [split; [discriminate|reflexivity]|].
  cbn [String.eqb]. destruct (read_file (String c s)) as [raw|e|e] eqn:R; try (split; [discriminate|reflexivity]).
  destruct H as [H|[H|(file & e & H & Re)]]; [|discriminate|cbn in H; injection H as <-; congruence].
  cbv zeta.
  destruct (String.eqb f "json") eqn:F1; [apply String.eqb_eq in F1; subst f|destruct (String.eqb f "yaml") eqn:F2; [apply String.eqb_eq in F2; subst f|
    destruct (String.eqb f "hcl") eqn:F3; [apply String.eqb_eq in F3; subst f|split; [discriminate|reflexivity]]]];
    repeat match goal with |- context [String.eqb t ?x] => let T := fresh "T" in destruct (String.eqb t x) eqn:T; [apply String.eqb_eq in T; subst t; exfalso;
       eapply H; unfold conversions; cbn [In]; tauto|] end; (split; [discriminate|reflexivity]).
Qed.

(* The usage is printed if there is no file, unless the formats are the same. *)
Theorem C54_usage_partial : forall args f t rest, asked args f t rest -> f <> t -> file_arg rest = None ->
  run args = mkOut 255 "" ("usage: " +++ prog +++ " [options] <filename>" +++ nl +++ defaults).
Proof.
  intros args f t rest A N F. unfold main. rewrite (flags_parse prog defaults _ _ _ _ _ _ A).
  apply String.eqb_neq in N. rewrite N. destruct rest as [|s rest]; [reflexivity|]. destruct s; [reflexivity|discriminate].
Qed.

(* A command line that is none at all. *)
Theorem C54_bad_flags : forall args, (forall f t rest, ~ asked args f t rest) ->
  stdout (run args) = "" /\ (exists e, stderr (run args) = e +++ "Usage of " +++ prog +++ ":" +++ nl +++ defaults)
  /\ (code (run args) = 2 \/ (code (run args) = 0 /\ exists s, In s args /\ asks_help s)).
Proof.
  intros args N. destruct (parse_cases prog defaults (S (List.length args)) args "json" "hcl") as [(f & t & rest & A)|(o & E & So & Co)]; [lia| |].
  - exfalso. exact (N f t rest A).
  - pose proof (leave_usage prog defaults (S (List.length args)) args _ _ o (le_n _) E). unfold main. rewrite E. auto.
Qed.

(* Status 0 means that the conversion asked for was made and printed, or that help was asked. *)
Theorem C54_success : forall args, code (run args) = 0 ->
  (exists f t rest file raw conv out, asked args f t rest /\ file_arg rest = Some file /\ read_file file = Ok raw
     /\ In (f, t, conv) conversions /\ conv raw = Ok out /\ stdout (run args) = out +++ nl)
  \/ (stdout (run args) = "" /\ exists s, In s args /\ asks_help s).
Proof.
  intros args C. destruct (parse_cases prog defaults (S (List.length args)) args "json" "hcl") as [(f & t & rest & A)|(o & E & So & Co)]; [lia| |].
  2:{ right. unfold main in *. rewrite E in *. split; [exact So|]. destruct Co as [Co|[_ Co]]; [congruence|exact Co]. }
  left.
  assert (D : (exists conv, In (f, t, conv) conversions) \/ forall conv, ~ In (f, t, conv) conversions).
  { destruct (in_dec pair_dec (f, t) (map fst conversions)) as [I|I].
    - left. apply in_map_iff in I. destruct I as ([[f' t'] conv] & X & I). injection X as -> ->. exists conv. exact I.
    - right. intros conv X. apply I. apply in_map_iff. exists (f, t, conv). split; [reflexivity|exact X]. }
  destruct D as [(conv & I)|D]; [|exfalso; apply (C54_otherwise args f t rest A); [left; exact D|exact C]].
  destruct (file_arg rest) as [file|] eqn:F; [|exfalso; apply (C54_otherwise args f t rest A); [right; left; exact F|exact C]].
  destruct (read_file file) as [raw|e|e] eqn:R.
  - assert (Q := C54_converts args f t rest file raw conv A F R I). exists f, t, rest, file, raw, conv.
    destruct (conv raw) as [out|e|e].
    + exists out. rewrite Q. auto 10.
    + rewrite Q in C. discriminate.
    + destruct Q as [Q _]. congruence.
  - exfalso. apply (C54_otherwise args f t rest A); [right; right; exists file, e; auto|exact C].
  - exfalso. revert C. unfold main. rewrite (flags_parse prog defaults _ _ _ _ _ _ A).
    destruct (String.eqb f t); [discriminate|]. destruct rest as [|s rest]; [discriminate|]. destruct s; [discriminate|]. cbn in F. injection F as <-.
    cbn [String.eqb]. rewrite R. discriminate.
Qed.

(* C54 is false in two points: without a file and with equal formats (as with -from hcl alone)
   there is no usage, *)
Theorem C54_usage_refuted : exists args f t rest, asked args f t rest /\ file_arg rest = None
  /\ stderr (run args) = "error: from and to format are the same" +++ nl.
Proof.
  exists ["-from"; "hcl"], "hcl", "hcl", []. split; [|split; reflexivity].
  apply (fl_next "-" "from" "hcl" [] "json" "hcl"); [left; reflexivity|left; reflexivity|apply fl_none].
Qed.
(* and a request for help is not an error. *)
Theorem C54_help_refuted : exists args, code (run args) = 0 /\ stdout (run args) = "".
Proof. exists ["--help"]. split; reflexivity. Qed.
End Command.
Print Assumptions C54_converts.
Print Assumptions C54_otherwise.
Print Assumptions C54_usage_partial.
Print Assumptions C54_bad_flags.
Print Assumptions C54_success.
Print Assumptions C54_usage_refuted.
Print Assumptions C54_help_refuted.

Definition one_file (s : string) (name : string) : result string := if String.eqb name "f" then Ok s else Err "no such file".
Example C54_sample :
  asked ["--to=json"; "-from"; "hcl"; "f"; "-x"] "hcl" "json" ["f"; "-x"]
  /\ main (fun _ => Err "") (fun _ => Err "") "p" "d" (one_file ("a = 1" +++ nl)) ["--to=json"; "-from"; "hcl"; "f"; "-x"] = mkOut 0 ("{""a"":1}" +++ nl) ""
  /\ code (main (fun _ => Err "") (fun _ => Err "") "p" "d" (one_file "") ["--to=json"; "-from"; "hcl"; "f"]) = 2
  /\ code (main (fun _ => Err "") (fun _ => Err "") "p" "d" (one_file "{}") ["-to"; "xml"; "f"]) = 255
  /\ code (main (fun _ => Err "") (fun _ => Err "") "p" "d" (one_file "{}") ["-form"; "json"; "f"]) = 2.
Proof.
  split.
  - apply (fl_eq "--" "to" "json"); [tauto|right; reflexivity|]. apply (fl_next "-" "from" "hcl"); [tauto|left; reflexivity|].
    apply fl_stop. right. right. exists "f"%char, "". split; [reflexivity|discriminate].
  - vm_compute. repeat split.
Qed.
