(* C65: texts that fit a struct type are accepted. *)

From Verif Require Import Base GoType DetModel CtyModel HclModel HclSpec HclParse HclGrammar HclGrammarProofs TagModel StructModel StructSpec
  StructRef StructBlock StructResult StructNames MarshalModel MarshalSpec RoundSpec FitSpec FitProofs PropsRound.
From Verif Require CtySpec PropsStruct PlainScan.
From Coq Require Import Lia.
Local Open Scope nat_scope.

(* ----- C65: what fits is accepted ----- *)

(* Without a spec, a text whose items fit the type and that has no comments before values is read without an error, whatever the target
   held before, whichever labels are given and whatever earlier calls left in the references. *)
Theorem C65_accepted : forall E depth type_string zero assignable decode_attr hook,
  distinct_names E type_string ->
  forall t text its spec ref labels v, StructBlock.fields_of spec = [] -> ref_ok E type_string zero ref ->
  bare_values text -> parse_config text = Ok its -> fits E depth assignable decode_attr (fun u => hook u <> None) t its ->
  exists v' ref', unmarshal_spec E depth type_string zero assignable decode_attr hook spec ref labels t v text = (v', ref', Ok tt).
Proof.
  intros E depth ts zero asg da hook DN t text its spec ref labels v Sp RO Bv P F.
  exact (fits_accepted E depth ts zero asg da hook DN text spec t its labels v ref Sp RO Bv P F).
Qed.
Print Assumptions C65_accepted.

(* ----- an example ----- *)

Definition nl : string := String (Ascii.ascii_of_nat 10) "".
Definition lines (l : list string) : string := fold_right (fun s r => s +++ nl +++ r) "" l.
Definition q (s : string) : string := quote +++ s +++ quote.

Definition fit_fields : list gfield := [
  GField "Kind" false (hcl "kind,label") text;
  GField "Size" false (hcl "size,optional") int;
  GField "Title" false (hcl "title") text;
  GField "Gone" false (hcl "gone") int;
  GField "Lost" false (hcl "lost,optional") int;
  GField "Opts" false (hcl "opts") (TMap text text);
  GField "Items" false (hcl "items,optional") (TSlice any);
  GField "Data" false (hcl "data,optional") (TMap text any);
  GField "Extra" false (hcl "extra,block") (TMap text any);
  GField "Inner" false (hcl "inner,block") inner;
  GField "Ptr" false (hcl "ptr,block") (TPtr inner);
  GField "None" false (hcl "none,block") (TPtr inner);
  GField "Many" false (hcl "many,block") (TSlice (TPtr inner));
  GField "By" false (hcl "by,block") (TMap text inner);
  GField "Pairs" false (hcl "pairs,block") (TMap (TArray text) inner);
  GField "Base" true "" (TNamed 2);
  GField "hidden" false (hcl "hidden") text;
  GField "Skip" false (hcl "-") text].
Definition fit_type : gtype := TStruct fit_fields.
Definition fit_text : string := lines [
  "size = 5";
  "title = " +++ q "a";
  "gone = null";
  "note = " +++ q "n";
  "many " +++ q "x" +++ " {";
  "  r = 1";
  "}";
  "opts = { k = " +++ q "v" +++ " }";
  "items = [1, " +++ q "two" +++ ", [true, null]]";
  "data = { a = 1 }";
  "extra {";
  "  b = 2";
  "  c " +++ q "l" +++ " {";
  "    d = [3]";
  "  }";
  "}";
  "inner {";
  "}";
  "ptr " +++ q "p" +++ " " +++ q "more" +++ " {";
  "  r = -4";
  "}";
  "ptr {";
  "  unknown = 1";
  "}";
  "many {";
  "  id = " +++ q "own" +++ "";
  "}";
  "by " +++ q "one" +++ " {";
  "  r = null";
  "}";
  "pairs " +++ q "u" +++ " " +++ q "w" +++ " {";
  "  r = 7";
  "}"].
Definition fit_items : list item := [
  IAttr "size" (ENum 5); IAttr "title" (EStr "a"); IAttr "gone" ENull; IAttr "note" (EStr "n");
  IBlock "many" ["x"] [IAttr "r" (ENum 1)];
  IAttr "opts" (EObj [("k", EStr "v")]);
  IAttr "items" (ETuple [ENum 1; EStr "two"; ETuple [EBool true; ENull]]);
  IAttr "data" (EObj [("a", ENum 1)]);
  IBlock "extra" [] [IAttr "b" (ENum 2); IBlock "c" ["l"] [IAttr "d" (ETuple [ENum 3])]];
  IBlock "inner" [] [];
  IBlock "ptr" ["p"; "more"] [IAttr "r" (ENum (-4))];
  IBlock "ptr" [] [IAttr "unknown" (ENum 1)];
  IBlock "many" [] [IAttr "id" (EStr "own")];
  IBlock "by" ["one"] [IAttr "r" ENull];
  IBlock "pairs" ["u"; "w"] [IAttr "r" (ENum 7)]].

Ltac not_null := cbn; intuition discriminate.
Ltac class_goal' := first
  [ eapply class_null; [reflexivity|cbn; tauto]
  | eapply class_label; [reflexivity|not_null|reflexivity]
  | eapply class_dash; [reflexivity|not_null|discriminate]
  | eapply class_generic; [reflexivity|not_null|discriminate|discriminate|intros []|discriminate
      |apply points_self; discriminate|eexists; split; [first [left; reflexivity|right; eexists; reflexivity]|eexists; reflexivity]]
  | eapply class_block; [reflexivity|not_null|discriminate|discriminate|intros []|discriminate
      |first [apply points_ptr; reflexivity|apply points_self; discriminate]
      |first [left; eexists; reflexivity
             |right; eexists; split; [first [left; reflexivity|right; eexists; reflexivity]
                                     |first [left; eexists; reflexivity|right; eexists; reflexivity]]]]
  | eapply class_attr; [reflexivity|not_null|discriminate|discriminate|intros []|discriminate
      |first [apply points_ptr; reflexivity|apply points_self; discriminate]|not_block|not_generic] ].
Ltac field_goal' := first
  [ apply af_nil
  | apply af_hidden; [reflexivity|]
  | apply af_field; [reflexivity|class_goal'|discriminate|]
  | eapply af_inlined; [reflexivity|eapply class_inlined; [reflexivity|not_null|discriminate|intros []|apply points_self; discriminate|eexists; reflexivity]
      |apply points_self; discriminate|reflexivity| |] ].
Ltac item_in := repeat match goal with
  | H : In _ (_ :: _) |- _ => destruct H as [H|H]
  | H : In _ [] |- _ => destruct H
  | H : IAttr _ _ = IAttr _ _ |- _ => first [discriminate H|injection H; clear H; intros; subst]
  | H : IBlock _ _ _ = IBlock _ _ _ |- _ => first [discriminate H|injection H; clear H; intros; subst]
  | H : IAttr _ _ = IBlock _ _ _ |- _ => discriminate H
  | H : IBlock _ _ _ = IAttr _ _ |- _ => discriminate H
  end.
Ltac nulls_goal := let k := fresh in intro k; split;
  [ intro; cbn in *; intuition subst; eexists; split; [|constructor]; cbn; tauto
  | intros (? & ? & M); unfold fit_items in *; item_in; inversion M; subst; cbn; tauto ].
Ltac meant := repeat first [constructor|eexists].
Ltac known_field := let g := fresh in do 3 eexists; split; [|split; [reflexivity|]]; [cbn; repeat (first [left; reflexivity|right])|tauto].
Notation ex_fits := (fits ex_env 9 ex_assignable ex_attr (fun u => no_hook u <> None)).

Definition inner_classes (c : cls) : list (gfield * cls) :=
  [(GField "Id" false (hcl "id,label") text, Label); (GField "R" false (hcl "r,optional") int, c)].
Lemma inner_fits : forall its, (its = [] \/ (exists z, its = [IAttr "r" (ENum z)]) \/ (exists s, its = [IAttr "id" (EStr s)])) ->
  ex_fits inner its.
Proof.
  intros its S. apply (fits_struct _ _ _ _ _ inner [GField "Id" false (hcl "id,label") text; GField "R" false (hcl "r,optional") int]
    [] (inner_classes Attr)).
  - reflexivity.
  - destruct S as [->|[(z & ->)|(s & ->)]]; nulls_goal.
  - repeat field_goal'.
  - none.
  - apply PropsStruct.distinct_tags_intro. none.
  - no_inlined.
  - destruct S as [->|[(z & ->)|(s & ->)]]; intros; item_in; meant.
  - destruct S as [->|[(z & ->)|(s & ->)]]; intros; item_in.
    + exists (GField "R" false (hcl "r,optional") int), Attr, "optional". repeat split; cbn; tauto.
    + exists (GField "Id" false (hcl "id,label") text), Label, "label". repeat split; cbn; tauto.
  - destruct S as [->|[(z & ->)|(s & ->)]]; intros; item_in.
  - intros f c tag kind [X|[X|[]]] _ T; injection X as <- <-; injection T as <- <-; do 2 eexists; (split; [reflexivity|]).
    + apply ff_label; [reflexivity|]. destruct S as [->|[(z & ->)|(s & ->)]]; intros; item_in; try discriminate. eauto.
    + destruct S as [->|[(z & ->)|(s & ->)]].
      * apply ff_optional. intros e [].
      * eapply ff_attr; [right; right; reflexivity|left; reflexivity|constructor|reflexivity|reflexivity].
      * apply ff_optional. intros e [X|[]]. discriminate.
Qed.
Lemma inner_null_fits : ex_fits inner [IAttr "r" ENull].
Proof.
  apply (fits_struct _ _ _ _ _ inner [GField "Id" false (hcl "id,label") text; GField "R" false (hcl "r,optional") int]
    ["r"] (inner_classes Excluded)).
  - reflexivity.
  - nulls_goal.
  - repeat field_goal'.
  - none.
  - apply PropsStruct.distinct_tags_intro. none.
  - no_inlined.
  - intros; item_in; meant.
  - intros; item_in. exfalso. cbn in *. tauto.
  - intros; item_in.
  - intros f c tag kind [X|[X|[]]] C T; injection X as <- <-; [|discriminate]. injection T as <- <-. do 2 eexists. split; [reflexivity|].
    apply ff_label; [reflexivity|]. intros; item_in; discriminate.
Qed.

Definition fit_class (f : gfield) : cls :=
  match fname f with
  | "Kind" => Label
  | "Size" | "Title" | "Lost" | "Opts" | "Note" => Attr
  | "Items" | "Data" | "Extra" => Generic
  | "Base" => Inlined
  | "Gone" | "Skip" => Excluded
  | _ => Block
  end.
Definition note : gfield := GField "Note" false (hcl "note,optional") text.
Definition fit_classes : list (gfield * cls) :=
  map (fun f => (f, fit_class f)) (firstn 16 fit_fields) ++ [(note, Attr)] ++ [(GField "Skip" false (hcl "-") text, Excluded)].

Ltac pick_class name := exists (nth 0 (filter (fun f => String.eqb (fname f) name) (note :: fit_fields)) note); do 2 eexists;
  (split; [cbn; repeat (first [left; reflexivity|right])|split; [reflexivity|tauto]]).
Ltac absent_item := unfold no_attr, no_block; intros; intro; unfold fit_items in *; cbn [firstn] in *; item_in; discriminate.
Lemma text_fits : ex_fits fit_type fit_items.
Proof.
  apply (fits_struct _ _ _ _ _ fit_type fit_fields ["gone"] fit_classes).
  - reflexivity.
  - nulls_goal.
  - repeat field_goal'.
  - none.
  - apply PropsStruct.distinct_tags_intro. none.
  - constructor. intros f t gs I C P U. cbn in I. decompose [or] I; clear I; try contradiction; subst; inversion C; subst; try discriminate.
    inversion P; subst; [discriminate|]. injection U as <-. no_inlined.
  - intros k e I. unfold fit_items in I. item_in; try (eexists; constructor; fail).
    + exists (CObj (overlay [("k", CStr "v")])). apply means_obj. repeat constructor.
    + exists (CTup [CNum (mkD 1 0); CStr "two"; CTup [CBool true; CNull]]). repeat constructor.
    + exists (CObj (overlay [("a", CNum (mkD 1 0))])). apply means_obj. repeat constructor.
  - intros k e I NI. unfold fit_items in I. item_in; first [pick_class "Size"|pick_class "Title"|pick_class "Note"|pick_class "Opts"|pick_class "Items"|pick_class "Data"|exfalso; apply NI; left; reflexivity].
  - intros k ls b I. unfold fit_items in I. item_in; first [pick_class "Extra"|pick_class "Many"|pick_class "Inner"|pick_class "Ptr"|pick_class "By"|pick_class "Pairs"].
  - intros f c tag kind I C T. cbn [fit_classes fit_fields firstn map fit_class fname app In] in I.
    repeat (destruct I as [I|I]; [injection I as <- <-; first [discriminate C|injection T as <- <-; do 2 eexists; (split; [reflexivity|])]|]);
      [..|destruct I]; cbn [ftype].
    + apply ff_label; [reflexivity|]. intros. unfold fit_items in *. item_in; discriminate.
    + eapply ff_attr; [right; right; reflexivity|left; reflexivity|constructor|reflexivity|reflexivity].
    + eapply ff_attr; [left; reflexivity|right; left; reflexivity|constructor|reflexivity|reflexivity].
    + apply ff_optional. absent_item.
    + eapply ff_attr with (x := CObj (overlay [("k", CStr "v")]));
        [left; reflexivity|do 5 right; left; reflexivity| |reflexivity|reflexivity].
      apply means_obj. repeat constructor.
    + eapply ff_list; [eexists; reflexivity|do 6 right; left; reflexivity| |reflexivity].
      constructor. intros e [<-|[<-|[<-|[]]]]; repeat constructor; try discriminate.
      intros e [<-|[<-|[]]]; constructor.
    + eapply ff_object; [intros (et & X); discriminate X|do 7 right; left; reflexivity| |reflexivity].
      constructor. intros k e [X|[]]. injection X as <- <-. constructor; unfold CtySpec.in_int64; lia.
    + eapply ff_body with (b := [IAttr "b" (ENum 2); IBlock "c" ["l"] [IAttr "d" (ETuple [ENum 3])]]);
        [intros (et & X); discriminate X|absent_item| |discriminate| |reflexivity].
      * exists (firstn 8 fit_items), [], (skipn 9 fit_items). split; [reflexivity|absent_item].
      * intros i [<-|[<-|[]]]; constructor; [constructor; unfold CtySpec.in_int64; lia|cbn; lia|].
        intros i [<-|[]]. constructor. constructor. intros e [<-|[]]. constructor. unfold CtySpec.in_int64; lia.
    + eapply ff_single with (b := []); [apply points_self; discriminate|eexists; reflexivity|auto|apply holds_value|reflexivity| |apply inner_fits; auto].
      * intros (u & X); discriminate X.
      * intros (u & X); discriminate X.
      * exists (firstn 9 fit_items), [], (skipn 10 fit_items). split; [reflexivity|absent_item].
    + eapply ff_single with (b := [IAttr "r" (ENum (-4))]); [apply points_ptr; reflexivity|eexists; reflexivity|auto|apply holds_pointer; left; eexists; reflexivity|reflexivity| |apply inner_fits; eauto].
      exists (firstn 10 fit_items), ["p"; "more"], (skipn 11 fit_items). split; [reflexivity|absent_item].
    + apply ff_no_block. absent_item.
    + eapply ff_slice; [reflexivity|apply held_pointer; [reflexivity|eexists; reflexivity]|auto|reflexivity|reflexivity|].
      intros ls b I. unfold fit_items in I. item_in; try discriminate; apply inner_fits; eauto.
    + eapply ff_map; [reflexivity|intros (et & X); discriminate X|apply held_value; eexists; reflexivity|auto|reflexivity|reflexivity|reflexivity|].
      intros ls b I. unfold fit_items in I. item_in; try discriminate. split; [discriminate|apply inner_null_fits].
    + eapply ff_pairs; [reflexivity|eexists; reflexivity|apply held_value; eexists; reflexivity|auto|reflexivity|reflexivity|reflexivity|].
      intros ls b I. unfold fit_items in I. item_in; try discriminate. split; [cbn; lia|apply inner_fits; eauto].
    + eapply ff_attr; [right; right; reflexivity|do 3 right; left; reflexivity|constructor|reflexivity|reflexivity].
Qed.

Definition fit_run (labels : list string) := ex_unmarshal None [] labels fit_type (ex_zero fit_type) fit_text.
Definition fit_out : hval := fst (fst (fit_run ["top"])).
Definition element_at (v : hval) (p : list string) : list (option hval) :=
  match hget v p with
  | HSlice l => map (fun x => match x with HPtr _ y => Some (hget y ["R"]) | _ => None end) l
  | HMap m => map (fun kv => Some (hget (snd kv) ["R"])) m
  | HMap2 m => map (fun kv => Some (hget (snd kv) ["R"])) m
  | HPtr _ y => [Some (hget y ["R"])]
  | _ => []
  end.
Example C65_nonvacuous : parse_config fit_text = Ok fit_items /\ ex_fits fit_type fit_items /\
  ref_ok ex_env enc ex_zero [] /\
  (forall labels, exists v' ref', fit_run labels = (v', ref', Ok tt)) /\
  hget fit_out ["Size"] = HNative (NInt 5) /\ hget fit_out ["Base"; "Note"] = HText "n" /\
  hget fit_out ["Items"] = HNative (NList [NInt 1; NStr "two"; NList [NBool true; NNil]]) /\
  element_at fit_out ["Ptr"] = [Some (HNative (NInt (-4)))] /\
  element_at fit_out ["Many"] = [Some (HNative (NInt 1)); Some (HNative (NInt 0))] /\
  element_at fit_out ["By"] = [Some (HNative (NInt 0))] /\ element_at fit_out ["Pairs"] = [Some (HNative (NInt 7))].
Proof.
  assert (P : parse_config fit_text = Ok fit_items) by (vm_compute; reflexivity).
  assert (R : ref_ok ex_env enc ex_zero []) by (intros s u _; left; reflexivity).
  assert (B : bare_values fit_text).
  { destruct (PlainScan.scan LNone fit_text) as [us| |] eqn:S; [exact (plain_bare _ _ S)|exfalso; vm_compute in S; discriminate S..]. }
  split; [exact P|]. split; [exact text_fits|]. split; [exact R|]. split.
  - intro labels. exact (C65_accepted ex_env 9 enc ex_zero ex_assignable ex_attr no_hook (enc_distinct _) fit_type fit_text fit_items
      None [] labels (ex_zero fit_type) eq_refl R B P text_fits).
  - repeat split; vm_compute; reflexivity.
Qed.

(* ----- what does not fit although it looks as if ----- *)

(* A struct with one field X, read from a text. *)
Definition attempt (tag : string) (t : gtype) (dat : string) : result unit * hval :=
  let r := ex_unmarshal None [] [] (holder tag t) (record [(["X"], ex_zero t)]) dat in
  (snd r, hget (fst (fst r)) ["X"]).
Definition panics (r : result unit * hval) : Prop := exists s, fst r = Panic s.

(* An empty block for a map of generic data, a block without a label for a map of structs, a
   block for a pointer to a slice of structs, and a block for a slice of pointers to pointers. *)
Theorem C65_panics_refuted :
  panics (attempt (hcl "x,block") (TMap text any) (lines ["x {"; "}"])) /\
  panics (attempt (hcl "x,block") (TMap text inner) (lines ["x {"; "  r = 1"; "}"])) /\
  panics (attempt (hcl "x,block") (TPtr (TSlice inner)) (lines ["x {"; "  r = 1"; "}"])) /\
  panics (attempt (hcl "x,block") (TSlice (TPtr (TPtr inner))) (lines ["x {"; "  r = 1"; "}"])).
Proof. repeat split; eexists; vm_compute; reflexivity. Qed.
Print Assumptions C65_panics_refuted.

(* A comment before the object for a map of generic data: the same items, but refused. *)
Theorem C65_comment_refuted :
  parse_config "x = /* c */ { a = 1 }" = parse_config "x = { a = 1 } /* c */" /\
  (exists m, fst (attempt (hcl "x") (TMap text any) "x = /* c */ { a = 1 }") = Err m) /\
  fst (attempt (hcl "x") (TMap text any) "x = { a = 1 } /* c */") = Ok tt.
Proof. split; [vm_compute; reflexivity|]. split; [eexists; vm_compute; reflexivity|vm_compute; reflexivity]. Qed.
Print Assumptions C65_comment_refuted.

(* A list for a slice of pointers to numbers is accepted, and lost. *)
Theorem C65_ignored_refuted : ex_zero (TSlice (TPtr int)) = HOpaque "zero" /\
  attempt (hcl "x,optional") (TSlice (TPtr int)) (lines ["x = [1, 2]"]) = (Ok tt, HOpaque "zero").
Proof. split; vm_compute; reflexivity. Qed.
Print Assumptions C65_ignored_refuted.
