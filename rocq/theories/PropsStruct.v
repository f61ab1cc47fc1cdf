(* C30 - C33 and C55 - C61: decoding HCL text into structs. *)

From Verif Require Import Base HclSpec HclDecode HclParse HclGrammar HclGrammarProofs.
From Verif Require Import GoType SpecModel CollectModel DetModel CtyModel HclModel TagModel
  TagSpec TagProofs StructModel StructScan StructParse StructSpec StructFields StructRun StructRef StructFuel
  StructResult StructBlock StructSplit StructNames StructSound.
From Coq Require Import Lia.

(* ----- an example ----- *)

Definition hcl (s : string) : string := "hcl:" +++ quote +++ s +++ quote.
Definition text := TBasic "string".
Definition int := TBasic "int".
Definition shape := TNamed 3.
Definition ex_env : env := [
  mkNamed "p" "Top" (TStruct [
    GField "Name" false (hcl "name,label") text;
    GField "Size" false (hcl "size,optional") int;
    GField "Shape" false (hcl "shape,block") shape;
    GField "Shapes" false (hcl "shapes,block") (TSlice shape);
    GField "By" false (hcl "by,block") (TMap text shape);
    GField "Extra" false (hcl "extra,optional") (TMap text (TIface []));
    GField "Items" false (hcl "items,optional") (TSlice (TIface []));
    GField "Inner" false (hcl "inner,block") (TPtr (TNamed 1));
    GField "Many" false (hcl "many,block") (TSlice (TPtr (TNamed 1)));
    GField "hidden" false (hcl "hidden") text;
    GField "Skip" false (hcl "-") text]);
  mkNamed "p" "Circle" (TStruct [GField "Id" false (hcl "id,label") text; GField "R" false (hcl "r,optional") int]);
  mkNamed "p" "Square" (TStruct [GField "W" false (hcl "w") int]);
  mkNamed "p" "Shape" (TIface ["Area"]);
  mkNamed "p" "Holder" (TStruct [GField "Shape" false (hcl "shape,block") shape;
    GField "Pairs" false (hcl "pairs,block") (TMap (TArray text) shape)]);
  mkNamed "p" "Pairs" (TStruct [GField "Pairs" false (hcl "pairs,block") (TMap (TArray text) (TPtr (TNamed 1)))])].
Definition ex_zero (t : gtype) : hval :=
  match under ex_env t with
  | TStruct fs => HStruct (fun p => match p with
      | [n] => match find (fun f => String.eqb (fname f) n) fs with
               | Some f => match ftype f with TBasic "string" => HText "" | _ => HOpaque "zero" end
               | None => HOpaque "invalid"
               end
      | _ => HOpaque "invalid"
      end)
  | TBasic "string" => HText ""
  | _ => HOpaque "zero"
  end.
Definition ex_assignable (xt ft : gtype) : bool :=
  match under ex_env ft with TIface _ => true | _ => String.eqb (enc xt) (enc ft) end.
Definition ex_attr (t : gtype) (v : cval) : result hval :=
  match v, t with
  | CStr s, TBasic "string" => Ok (HText s)
  | CNum d, TBasic "int" => Ok (HNative (NInt (num d)))
  | _, _ => Err "unsuitable value type"
  end.
Definition no_hook (t : gtype) : option (string -> list string -> hval -> hval * result unit) := None.
Definition ex_decode := unmarshal_spec ex_env 9 enc ex_zero ex_assignable ex_attr no_hook.
Definition ex_ref : hrefmap := [("Circle", RObj (TNamed 1) (ex_zero (TNamed 1))); ("Square", RObj (TNamed 2) (ex_zero (TNamed 2)))].
Definition circle := SStruct "Circle" None.
Definition square := SStruct "Square" None.
Definition nl : string := String "010" "".
Definition lines (l : list string) : string := fold_right (fun s r => s +++ nl +++ r) "" l.
Definition ex_text : string := lines [
  "size = 5";
  "shape {"; "  w = 3"; "}";
  "shapes {"; "  r = 1"; "}";
  "shapes " +++ quote +++ "b" +++ quote +++ " {"; "  r = 2"; "}";
  "by " +++ quote +++ "one" +++ quote +++ " {"; "  w = 4"; "}";
  "extra {"; "  a = 1"; "  b = [true]"; "}";
  "items = [1, 2]";
  "inner {"; "  r = 9"; "}";
  "many {"; "  id = " +++ quote +++ "x" +++ quote; "}";
  "many {"; "}"].
Definition ex_spec : sstruct := SStruct "Top" (Some [("Shape", VSingle square); ("Shapes", VList [circle]); ("By", VMap [("one", square); ("two", circle)])]).
Definition ex_run := ex_decode (Some ex_spec) ex_ref ["top"] (TNamed 0) (ex_zero (TNamed 0)) ex_text.
Definition ex_out := fst (fst ex_run).

Definition pointee (v : hval) : hval := match v with HPtr _ x => x | _ => v end.
Definition pointee_type (v : hval) : option gtype := match v with HPtr t _ => Some t | _ => None end.
Definition entries (v : hval) : list hval :=
  match v with HSlice l => l | HMap m => map snd m | HMap2 m => map snd m | _ => [] end.

(* The fields of Top with their classes, under the spec of the example. *)
Definition top_fields : list gfield := match under ex_env (TNamed 0) with TStruct fs => fs | _ => [] end.
Definition with_classes (fs : list gfield) (cs : list cls) : list (gfield * cls) := combine fs cs.
Definition shown_fields : list gfield := filter (fun f => is_exported (fname f)) top_fields.
Definition top_classes : list (gfield * cls) := with_classes shown_fields
  [Label; Attr; Block; Block; Block; Generic; Generic; Block; Block; Excluded].

Ltac not_block := let H := fresh in intros [(? & H)|(? & [H|(? & H)] & _)]; discriminate H.
Ltac not_generic := let H := fresh in intros (? & [H|(? & H)] & _); discriminate H.
Ltac class_goal := first
  [ eapply class_label; [reflexivity|intros []|reflexivity]
  | eapply class_dash; [reflexivity|intros []|discriminate]
  | eapply class_spec; [reflexivity|intros []|discriminate|discriminate|cbn; tauto]
  | eapply class_generic; [reflexivity|intros []|discriminate|discriminate|let X := fresh in intro X; cbn in X; intuition discriminate|discriminate
      |apply points_self; discriminate|eexists; split; [first [left; reflexivity|right; eexists; reflexivity]|eexists; reflexivity]]
  | eapply class_block; [reflexivity|intros []|discriminate|discriminate|let X := fresh in intro X; cbn in X; intuition discriminate|discriminate
      |first [apply points_ptr; reflexivity|apply points_self; discriminate]
      |first [left; eexists; reflexivity
             |right; eexists; split; [first [left; reflexivity|right; eexists; reflexivity]
                                     |first [left; eexists; reflexivity|right; eexists; reflexivity]]]]
  | eapply class_attr; [reflexivity|intros []|discriminate|discriminate|let X := fresh in intro X; cbn in X; intuition discriminate|discriminate
      |apply points_self; discriminate|not_block|not_generic] ].

Example ex_classes : all_fields ex_env [] (keys (fields_of (Some ex_spec))) top_fields top_classes.
Proof.
  repeat match goal with
  | |- all_fields _ _ _ [] _ => constructor
  | |- all_fields _ _ _ (GField _ _ _ _ :: _) _ => first [apply af_hidden; [reflexivity|] | apply af_field; [reflexivity|class_goal|discriminate|]]
  | |- all_fields _ _ _ top_fields _ => unfold top_fields, top_classes, with_classes, shown_fields, top_fields; cbn
  end.
Qed.

(* ----- C30: the classes of fields ----- *)

(* C30 in full: the four lists of a successful loopFields are the fields of the four classes. *)
Definition C30_full : Prop := forall E type_string zero n nulls fs m ref l L,
  all_fields E nulls (keys m) fs l -> loop_fields E type_string zero n nulls fs m ref = Ok L ->
  l_labels L = of_class Label l /\ l_new L = of_class Attr l /\ l_ori L = of_class Block l /\ l_dec L = of_class Generic l.

(* It holds if no two fields, counting those of inlined structs, have the same name; then with
   enough stack the call succeeds. *)
Theorem C30_partition_partial : forall E type_string zero nulls fs m ref l,
  all_fields E nulls (keys m) fs l -> NoDup (map (fun fc => fname (fst fc)) l) ->
  exists n0, forall n, n0 <= n -> exists L, loop_fields E type_string zero n nulls fs m ref = Ok L /\
  l_labels L = of_class Label l /\ l_new L = of_class Attr l /\ l_ori L = of_class Block l /\ l_dec L = of_class Generic l.
Proof.
  intros E ts zero nulls fs m ref l A N.
  destruct (loop_fields_classes E ts zero nulls (keys m) fs l A) as (n0 & H). exists n0. intros n Hn.
  destruct (H n Hn m ref) as (L & HL & C1 & C2 & C3 & C4 & _); [|exact N|exists L; auto].
  intros f c _. split.
  - intros I X. apply lookup_None in X. exact (X I).
  - intro X. destruct (lookup (fname f) m) eqn:Lk; [|congruence]. apply lookup_Some_key. eauto.
Qed.
Print Assumptions C30_partition_partial.

(* A field has one class only, and one if its tag can be read. *)
Theorem C30_one_class : forall E nulls specs f c d,
  class_of E nulls specs f c -> class_of E nulls specs f d -> c = d.
Proof. exact class_unique. Qed.
Print Assumptions C30_one_class.
Theorem C30_some_class : forall E nulls specs f two, tag2 (ftag f) = Ok two -> exists c, class_of E nulls specs f c.
Proof. intros E nulls specs f [tag kind] H. exact (class_total E nulls specs f tag kind H). Qed.
Print Assumptions C30_some_class.

(* No unexported and no excluded field is in a list, whatever the names. *)
Theorem C30_only_exported : forall E type_string zero n nulls fs m ref L,
  loop_fields E type_string zero n nulls fs m ref = Ok L -> forall f,
  In f (l_labels L) \/ In f (l_new L) \/ In f (l_ori L) \/ In f (l_dec L) ->
  within E f fs /\ is_exported (fname f) = true /\
  exists tag kind, tag2 (ftag f) = Ok (tag, kind) /\ ~ In tag nulls /\ (tag = "-" -> is_label kind).
Proof. exact loop_fields_sound. Qed.
Print Assumptions C30_only_exported.

Example C30_nonvacuous : NoDup (map (fun fc => fname (fst fc)) top_classes) /\
  map fname (of_class Attr top_classes) = ["Size"] /\ map fname (of_class Generic top_classes) = ["Extra"; "Items"] /\
  exists L, loop_fields ex_env enc ex_zero 9 [] top_fields (fields_of (Some ex_spec)) ex_ref = Ok L /\
    map fname (l_ori L) = ["Shape"; "Shapes"; "By"; "Inner"; "Many"].
Proof.
  split; [|split; [reflexivity|split; [reflexivity|]]].
  - vm_compute. repeat constructor; cbn; intuition discriminate.
  - eexists. split; vm_compute; reflexivity.
Qed.

(* False in full: a block field inside an inlined struct makes a later plain field of the same
   name a block field, which is then not decoded as an attribute. *)
Definition clash_fields : list gfield := [
  GField "A" false "" (TStruct [GField "X" false (hcl "x,block") (TNamed 1)]); GField "X" false (hcl "n") int].
Theorem C30_refuted : ~ C30_full.
Proof.
  intro H.
  assert (A : all_fields ex_env [] (keys ([] : list (string * svalue))) clash_fields
    [(nth 0 clash_fields (GField "" false "" int), Inlined);
     (GField "X" false (hcl "x,block") (TNamed 1), Block); (GField "X" false (hcl "n") int, Attr)]).
  { unfold clash_fields. cbn [nth].
    refine (af_inlined ex_env [] _ _ _ _ _ [(GField "X" false (hcl "x,block") (TNamed 1), Block)] [_] _ _ _ _ _ _).
    - reflexivity.
    - eapply class_inlined; [reflexivity|intros []|discriminate|intros []|apply points_self; discriminate|eexists; reflexivity].
    - apply points_self. discriminate.
    - reflexivity.
    - apply af_field; [reflexivity|class_goal|discriminate|constructor].
    - apply af_field; [reflexivity|class_goal|discriminate|constructor]. }
  specialize (H ex_env enc ex_zero 9 [] clash_fields [] [] _ _ A ltac:(vm_compute; reflexivity)) as (_ & H & _).
  vm_compute in H. discriminate H.
Qed.
Print Assumptions C30_refuted.

(* The test for a tag that ends in ",-" never succeeds: such a field is decoded. *)
Theorem C30_comma_dash_refuted : exists E fs f L, In f fs /\ ftag f = hcl "x,-" /\
  loop_fields E enc ex_zero 9 [] fs [] [] = Ok L /\ In f (l_new L).
Proof.
  exists [], [GField "X" false (hcl "x,-") int]. do 2 eexists. split; [left; reflexivity|]. split; [reflexivity|].
  split; [vm_compute; reflexivity|left; reflexivity].
Qed.
Print Assumptions C30_comma_dash_refuted.

(* An untagged pointer to the type itself is followed for ever. *)
Definition loop_env : env := [mkNamed "p" "Node" (TStruct [GField "Next" false "" (TPtr (TNamed 0))])].
Theorem C30_recursive_refuted : forall n type_string zero nulls ref, ~ In "" nulls ->
  loop_fields loop_env type_string zero n nulls [GField "Next" false "" (TPtr (TNamed 0))] [] ref = Panic "stack overflow".
Proof.
  intros n ts zero nulls ref N. induction n as [|n IH]; [reflexivity|]. rewrite loop_fields_cons.
  assert (X : loop_field loop_env ts zero n nulls (GField "Next" false "" (TPtr (TNamed 0))) [] ref = Panic "stack overflow").
  { unfold loop_field. change (tag2 (ftag (GField "Next" false "" (TPtr (TNamed 0))))) with (Ok ("", "")).
    cbn [is_exported fname bindr negb]. apply grep_false in N. rewrite N. exact IH. }
  rewrite X. reflexivity.
Qed.
Print Assumptions C30_recursive_refuted.

(* ----- the call that the theorems are about ----- *)

Section Decode.
Variable E : env.
Variable depth : nat.
Variable type_string : gtype -> string.
Variable zero : gtype -> hval.
Variable assignable : gtype -> gtype -> bool.
Variable decode_attr : gtype -> cval -> result hval.
Variable hook : gtype -> option (string -> list string -> hval -> hval * result unit).
Notation decode := (unmarshal_spec E depth type_string zero assignable decode_attr hook).

(* The target's type, the text and the classes of the fields; nulls are the null attributes. *)
Definition described (t : gtype) (dat : string) (spec : option sstruct) (body : list item) (l : list (gfield * cls)) : Prop :=
  exists fs nulls, under E t = TStruct fs /\ parse_config dat = Ok body /\
    (forall k, In k nulls <-> null_in body k) /\ all_fields E nulls (keys (fields_of spec)) fs l /\
    NoDup (map (fun fc => fname (fst fc)) l) /\ distinct_tags l.

(* A field of a class, the name it has in the text, and where FieldByName finds it. *)
Definition field_at (t : gtype) (l : list (gfield * cls)) (f : gfield) (c : cls) (tag : string)
    (path : list string) (ft : gtype) : Prop :=
  In (f, c) l /\ (exists kind, tag2 (ftag f) = Ok (tag, kind)) /\ find_field E depth t (fname f) = Some (path, ft).

Theorem C55_direct_field : forall t fs f, under E t = TStruct fs -> In f fs -> NoDup (map fname fs) -> 0 < depth ->
  find_field E depth t (fname f) = Some ([fname f], ftype f).
Proof. intros t fs f U I N D. destruct depth; [lia|]. exact (direct_field E n t fs f U I N). Qed.

(* ----- C55: attributes ----- *)

Theorem C55_attribute_field : forall t dat spec body l ref labels v v' ref' f tag path ft,
  described t dat spec body l -> decode spec ref labels t v dat = (v', ref', Ok tt) ->
  field_at t l f Attr tag path ft ->
  (exists e x, In (IAttr tag e) body /\ means e x /\ decode_attr (ftype f) x = Ok (hget v' path))
  \/ ((forall e, ~ In (IAttr tag e) body) /\ tag2 (ftag f) = Ok (tag, "optional") /\ hget v' path = hget v path).
Proof.
  intros t dat spec body l ref labels v v' ref' f tag path ft (fs & nulls & U & B & N & A & ND & NT) H (I & (kind & T) & F).
  rewrite unmarshal_eq in H.
  destruct (attr_field _ _ _ _ _ _ _ _ _ _ _ _ _ _ _ _ _ _ _ _ _ U B N A ND NT _ _ _ _ _ H I T F) as [X|(X & -> & Y)];
    [left; exact X|right; auto].
Qed.

(* ----- C56: labels ----- *)

Theorem C56_label_field : forall t dat spec body l ref labels v v' ref' i f tag path ft,
  described t dat spec body l -> decode spec ref labels t v dat = (v', ref', Ok tt) ->
  nth_error (of_class Label l) i = Some f -> field_at t l f Label tag path ft ->
  exists w, ((exists s, In (IAttr tag (EStr s)) body /\ w = HText s)
             \/ ((forall e, ~ In (IAttr tag e) body) /\ w = hget v path)) /\
    (List.length labels = List.length (of_class Label l) /\ w = HText "" /\
       (exists s, nth_error labels i = Some s /\ hget v' path = HText s)
     \/ ~ (List.length labels = List.length (of_class Label l) /\ w = HText "") /\ hget v' path = w).
Proof.
  intros t dat spec body l ref labels v v' ref' i f tag path ft (fs & nulls & U & B & N & A & ND & NT) H If (I & (kind & T) & F).
  rewrite unmarshal_eq in H.
  exact (label_field _ _ _ _ _ _ _ _ _ _ _ _ _ _ _ _ _ _ _ _ _ U B N A ND NT _ _ _ _ _ _ H If T F).
Qed.

(* ----- C57: generic data ----- *)

Theorem C57_generic_field : forall t dat spec body l ref labels v v' ref' f tag path ft,
  described t dat spec body l -> decode spec ref labels t v dat = (v', ref', Ok tt) ->
  field_at t l f Generic tag path ft ->
  (exists e n, In (IAttr tag e) body /\ expr_value e n /\ hget v' path = HNative n /\
     ((exists et, under E (ftype f) = TSlice et) /\ (exists es, e = ETuple es)
      \/ (forall et, under E (ftype f) <> TSlice et) /\ (exists es, e = EObj es)))
  \/ ((forall e, ~ In (IAttr tag e) body) /\
      ((exists ls b n, first_block body tag ls b /\ body_value b n /\ hget v' path = HNative n)
       \/ ((forall ls b, ~ In (IBlock tag ls b) body) /\ hget v' path = hget v path))).
Proof.
  intros t dat spec body l ref labels v v' ref' f tag path ft (fs & nulls & U & B & N & A & ND & NT) H (I & (kind & T) & F).
  rewrite unmarshal_eq in H.
  destruct (generic_field _ _ _ _ _ _ _ _ _ _ _ _ _ _ _ _ _ _ _ _ _ U B N A ND NT _ _ _ _ _ H I T F)
    as [(e & n & X1 & X2 & X3 & X4)|(X & [(ls & b & n & Y1 & Y2 & Y3)|Y])].
  - left. exists e, n. split; [exact X1|]. split; [exact X2|]. split; [exact X3|].
    unfold is_slice in X4. destruct (GoType.under E (ftype f)) eqn:Uf; try (right; split; [congruence|exact X4]).
    left. split; [eauto|exact X4].
  - right. split; [exact X|]. left. exists ls, b, n. split; [exact Y1|]. split; [|exact Y3].
    apply decode_sound; [|exact Y2]. apply parse_distinct in B. inversion B.
    destruct Y1 as (pre & post & -> & _). match goal with X : forall k ls b, In _ _ -> _ |- _ => apply (X tag ls), in_elt end.
  - right. split; [exact X|]. right. exact Y.
Qed.

(* ----- C59: everything in the text is used ----- *)

Theorem C59_all_used_partial : forall t dat spec body l ref labels v v' ref',
  described t dat spec body l -> decode spec ref labels t v dat = (v', ref', Ok tt) ->
  (forall k e, In (IAttr k e) body -> means e CNull \/
     exists f c kind, In (f, c) l /\ claimed c = true /\ tag2 (ftag f) = Ok (k, kind)) /\
  (forall k ls b, In (IBlock k ls b) body ->
     exists f c kind, In (f, c) l /\ (c = Block \/ c = Generic) /\ tag2 (ftag f) = Ok (k, kind)).
Proof.
  intros t dat spec body l ref labels v v' ref' (fs & nulls & U & B & N & A & ND & NT) H.
  rewrite unmarshal_eq in H. exact (all_claimed _ _ _ _ _ _ _ _ _ _ _ _ _ _ _ _ _ _ _ _ _ U B N A ND H).
Qed.

(* ----- C60: nothing else changes, also on failure ----- *)

Theorem C60_other_fields : forall t dat spec body l ref labels v v' ref' o path,
  described t dat spec body l -> decode spec ref labels t v dat = (v', ref', o) ->
  (forall f c tag p ft, field_at t l f c tag p ft -> claimed c = true -> path <> p) ->
  hget v' path = hget v path.
Proof.
  intros t dat spec body l ref labels v v' ref' o path (fs & nulls & U & B & N & A & ND & NT) H NP.
  rewrite unmarshal_eq in H.
  apply (untouched _ _ _ _ _ _ _ _ _ _ _ _ _ _ _ _ _ _ _ _ U B N A ND o path H).
  intros f c p ft I C F. destruct (class_tag _ _ _ _ _ (all_fields_class _ _ _ _ _ A _ _ I)) as (tag & kind & T & _).
  apply (NP f c tag p ft); [|exact C]. split; [exact I|]. split; [eauto|exact F].
Qed.

(* ----- C61: nested blocks ----- *)

(* The call depth is at most the length of the text plus one. *)
Theorem C61_nesting : forall n spec ref labels t v dat, String.length dat < n ->
  unmarshal_tree E depth type_string zero assignable decode_attr hook n spec ref labels t v dat
  = decode (Some spec) ref labels t v dat.
Proof. intros n spec ref labels t v dat L. apply unmarshal_fuel; lia. Qed.

(* ----- C31: the classes of blocks ----- *)

Hypothesis distinct : distinct_names E type_string.
Notation ref_ok := (ref_ok E type_string zero).
Notation user_fields := (user_fields E type_string).
Notation element ref dat := (element E depth type_string zero assignable decode_attr hook ref dat).
Notation fresh_element ref dat := (fresh_element E depth type_string zero assignable decode_attr hook ref dat).

(* Block k of a list spec gets class k or the first class, and holds what decoding the block's
   own text into a copy of the class's object gives. *)
Theorem C31_list : forall t dat spec body l ref labels v v' ref' f tag path ft lbs s0 ss et,
  ref_ok ref -> user_fields (fields_of spec) ->
  described t dat spec body l -> decode spec ref labels t v dat = (v', ref', Ok tt) ->
  field_at t l f Block tag path ft -> stands dat body tag lbs ->
  lookup (fname f) (fields_of spec) = Some (VList (s0 :: ss)) -> under E (ftype f) = TSlice et ->
  (lbs = [] /\ hget v' path = hget v path)
  \/ exists xs, hget v' path = HSlice xs /\ List.length xs = List.length (lbs) /\
    forall k lb, nth_error (lbs) k = Some lb -> exists s x,
      (nth_error (s0 :: ss) k = Some s \/ nth_error (s0 :: ss) k = None /\ s = s0) /\
      element ref dat s lb x /\ nth_error xs k = Some (snd (stored E et (fst x) (snd x))).
Proof.
  intros t dat spec body l ref labels v v' ref' f tag path ft lbs s0 ss et RO UF (fs & nulls & U & B & N & A & ND & NT) H (I & (kind & T) & F).
  exact (list_field E depth type_string zero assignable decode_attr hook distinct spec ref ref' labels t v v' dat fs body nulls l
    RO UF U B N A ND NT f tag kind path ft lbs s0 ss et H I T F).
Qed.

(* A labelled block of a map spec gets the class of its label, or the first class in the
   iteration order; of blocks with the same label the last one counts. *)
Theorem C31_map : forall t dat spec body l ref labels v v' ref' f tag path ft lbs cs kt et,
  ref_ok ref -> user_fields (fields_of spec) ->
  described t dat spec body l -> decode spec ref labels t v dat = (v', ref', Ok tt) ->
  field_at t l f Block tag path ft -> stands dat body tag lbs ->
  lookup (fname f) (fields_of spec) = Some (VMap cs) -> under E (ftype f) = TMap kt et ->
  (lbs = [] /\ hget v' path = hget v path)
  \/ exists xs, hget v' path = HMap xs /\ (forall lb, In lb (lbs) -> exists x, fst lb = [x]) /\
    forall k, match last_labelled k (lbs) with
              | None => lookup k xs = None
              | Some lb => exists s x,
                (lookup k cs = Some s \/ lookup k cs = None /\ exists k0 cs', cs = (k0, s) :: cs') /\
                element ref dat s lb x /\ lookup k xs = Some (snd (stored E et (fst x) (snd x)))
              end.
Proof.
  intros t dat spec body l ref labels v v' ref' f tag path ft lbs cs kt et RO UF (fs & nulls & U & B & N & A & ND & NT) H (I & (kind & T) & F).
  exact (map_field E depth type_string zero assignable decode_attr hook distinct spec ref ref' labels t v v' dat fs body nulls l
    RO UF U B N A ND NT f tag kind path ft lbs cs kt et H I T F).
Qed.

(* The labels a struct has itself: the texts of its first label field and of the last of the
   others, empty where there is none. *)
Definition label_field (f : gfield) : Prop := exists tag kind, tag2 (ftag f) = Ok (tag, kind) /\ is_label kind.
Definition no_label (fs : list gfield) : Prop := forall f, In f fs -> ~ label_field f.
Inductive last_label (v : hval) (fs : list gfield) : string -> Prop :=
| ll_none : no_label fs -> last_label v fs ""
| ll_last pre f post : fs = (pre ++ f :: post)%list -> label_field f -> no_label post -> last_label v fs (text_of (hget v [fname f])).
Inductive own_pair (t : gtype) (v : hval) : string * string -> Prop :=
| own_none : (forall fs, under E t = TStruct fs -> no_label fs) -> own_pair t v ("", "")
| own_some pre f post b : under E t = TStruct (pre ++ f :: post)%list -> no_label pre -> label_field f ->
    last_label v post b -> own_pair t v (text_of (hget v [fname f]), b).
Lemma label_field_dec : forall f, label_field f <-> String.eqb (to_lower (kind_of_tag f)) "label" = true.
Proof.
  intro f. unfold label_field, is_label, kind_of_tag. rewrite String.eqb_eq. destruct (tag2 (ftag f)) as [[tag kind]| |].
  - split; [intros (a & b & X & H); injection X as -> ->; exact H|eauto].
  - split; [intros (a & b & X & H); discriminate|discriminate].
  - split; [intros (a & b & X & H); discriminate|discriminate].
Qed.
Lemma filter_label : forall fs l, filter (fun f => String.eqb (to_lower (kind_of_tag f)) "label") fs = l ->
  match l with
  | [] => no_label fs
  | f :: l' => exists pre post, fs = (pre ++ f :: post)%list /\ no_label pre /\ label_field f /\
      filter (fun f => String.eqb (to_lower (kind_of_tag f)) "label") post = l'
  end.
Proof.
  induction fs as [|g fs IH]; intros l H; cbn [filter] in H.
  - subst l. intros f [].
  - destruct (String.eqb (to_lower (kind_of_tag g)) "label") eqn:G.
    + subst l. exists [], fs. split; [reflexivity|]. split; [intros f []|]. split; [apply label_field_dec; exact G|reflexivity].
    + assert (NG : ~ label_field g) by (rewrite label_field_dec; congruence).
      specialize (IH l H). destruct l as [|f l].
      * intros f [<-|I]; auto.
      * destruct IH as (pre & post & -> & NP & F & R). exists (g :: pre), post. split; [reflexivity|]. split; [|auto].
        intros x [<-|I]; auto.
Qed.
Lemma last_label_more : forall v post b g, last_label v post b -> ~ label_field g -> last_label v (g :: post) b.
Proof.
  intros v post b g [N|pre h post' -> L N] G.
  - apply ll_none. intros x [<-|I]; auto.
  - apply (ll_last _ _ (g :: pre) h post'); auto.
Qed.
Lemma own_labels_pair : forall t v, own_pair t v (own_labels E t v).
Proof.
  intros t v. unfold own_labels. destruct (under E t) as [n|u|et|et|kt et|fs|ms|b] eqn:U; try (apply own_none; congruence).
  pose proof (filter_label fs _ eq_refl) as H. destruct (filter _ fs) as [|f l].
  - apply own_none. intros fs' X. rewrite U in X. injection X as <-. exact H.
  - destruct H as (pre & post & -> & NP & F & R). eapply own_some; [exact U|exact NP|exact F|]. clear U NP F. subst l.
    induction post as [|g post IH]; [apply ll_none; intros f' []|]. cbn [filter].
    destruct (String.eqb (to_lower (kind_of_tag g)) "label") eqn:G.
    + pose proof (filter_label post _ eq_refl) as H. cbn [rev]. destruct (rev (filter _ post)) as [|x r] eqn:Rv.
      * cbn [app]. apply (ll_last _ _ [] g post); [reflexivity|apply label_field_dec; exact G|].
        destruct (filter _ post) as [|y l]; [exact H|]. cbn [rev] in Rv. destruct (rev l); discriminate.
      * cbn [app]. remember (text_of (hget v [fname x])) as b. destruct IH as [N|pre' h post' X Y Z].
        -- exfalso. destruct (filter _ post) as [|y l] eqn:Fy; [discriminate|].
           destruct H as (p1 & p2 & Ep & _ & Ly & _). apply (N y); [|exact Ly]. rewrite Ep. apply in_or_app. right. left. reflexivity.
        -- apply (ll_last _ _ (g :: pre') h post'); auto. rewrite X. reflexivity.
    + apply last_label_more; [exact IH|rewrite label_field_dec; congruence].
Qed.

(* With a spec by two labels; missing labels come from the label fields of the struct. *)
Theorem C31_map2 : forall t dat spec body l ref labels v v' ref' f tag path ft lbs cs kt et,
  ref_ok ref -> user_fields (fields_of spec) ->
  described t dat spec body l -> decode spec ref labels t v dat = (v', ref', Ok tt) ->
  field_at t l f Block tag path ft -> stands dat body tag lbs ->
  lookup (fname f) (fields_of spec) = Some (VMap2 cs) -> under E (ftype f) = TMap kt et ->
  (lbs = [] /\ hget v' path = hget v path)
  \/ exists xs es, hget v' path = HMap2 xs /\
    Forall2 (fun lb (e : (string * string) * (gtype * hval)) => List.length (fst lb) <= 2 /\
      (exists own, own_pair (fst (snd e)) (snd (snd e)) own /\ pair_key_of (fst lb) own (fst e)) /\
      exists s, class_of_labels cs (first_label (fst lb)) (second_label (fst lb)) s /\ element ref dat s lb (snd e))
      (lbs) es /\
    forall k, lookup k xs = option_map (fun x => snd (stored E et (fst x) (snd x))) (lookup k (rev es)).
Proof.
  intros t dat spec body l ref labels v v' ref' f tag path ft lbs cs kt et RO UF (fs & nulls & U & B & N & A & ND & NT) H (I & (kind & T) & F).
  intro NA. intros LS UT. destruct (map2_field E depth type_string zero assignable decode_attr hook distinct spec ref ref' labels t v v' dat fs body nulls l
    RO UF U B N A ND NT f tag kind path ft lbs cs kt et H I T F NA LS UT) as [X|(xs & es & X & Y & Z)]; [left; exact X|].
  right. exists xs, es. split; [exact X|]. split; [|exact Z].
  clear -Y. induction Y as [|lb e lbs es' (A1 & A2 & A3) Y IH]; constructor; [|exact IH]. split; [exact A1|]. split; [|exact A3].
  eexists. split; [apply own_labels_pair|exact A2].
Qed.

(* A single spec takes the first block. *)
Theorem C31_single : forall t dat spec body l ref labels v v' ref' f tag path ft lbs s,
  ref_ok ref -> user_fields (fields_of spec) ->
  described t dat spec body l -> decode spec ref labels t v dat = (v', ref', Ok tt) ->
  field_at t l f Block tag path ft -> stands dat body tag lbs ->
  lookup (fname f) (fields_of spec) = Some (VSingle s) ->
  match lbs with
  | [] => hget v' path = hget v path
  | lb :: _ => exists x, element ref dat s lb x /\ hget v' path = snd (stored E ft (fst x) (snd x))
  end.
Proof.
  intros t dat spec body l ref labels v v' ref' f tag path ft lbs s RO UF (fs & nulls & U & B & N & A & ND & NT) H (I & (kind & T) & F).
  exact (single_field E depth type_string zero assignable decode_attr hook distinct spec ref ref' labels t v v' dat fs body nulls l
    RO UF U B N A ND NT f tag kind path ft lbs s H I T F).
Qed.

(* ----- C58: block fields without a spec ----- *)

Theorem C58_own_type : forall t dat spec body l ref labels v v' ref' f tag path ft lbs st,
  ref_ok ref -> user_fields (fields_of spec) ->
  described t dat spec body l -> decode spec ref labels t v dat = (v', ref', Ok tt) ->
  field_at t l f Block tag path ft -> stands dat body tag lbs ->
  ~ In (fname f) (keys (fields_of spec)) -> points E (ftype f) st ->
  match lbs with
  | [] => hget v' path = hget v path
  | lb0 :: _ =>
    (is_struct E st -> exists x, fresh_element ref dat st lb0 x /\ hget v' path = snd (stored E ft st x)) /\
    (forall et u, under E (ftype f) = TSlice et -> elem_class E et = Registered u ->
       exists xs, hget v' path = HSlice xs /\
       Forall2 (fun lb x => exists y, fresh_element ref dat u lb y /\ x = snd (stored E et u y)) (lbs) xs) /\
    (forall kt et u, under E (ftype f) = TMap kt et -> pair_key E kt = false -> elem_class E et = Registered u ->
       exists xs, hget v' path = HMap xs /\ forall k, match last_labelled k (lbs) with
         | None => lookup k xs = None
         | Some lb => exists y, fresh_element ref dat u lb y /\ lookup k xs = Some (snd (stored E et u y))
         end)
  end.
Proof.
  intros t dat spec body l ref labels v v' ref' f tag path ft lbs st RO UF (fs & nulls & U & B & N & A & ND & NT) H (I & (kind & T) & F).
  exact (auto_field E depth type_string zero assignable decode_attr hook distinct spec ref ref' labels t v v' dat fs body nulls l
    RO UF U B N A ND NT f tag kind path ft lbs st H I T F).
Qed.

(* Maps with pairs as keys: an entry for each block, under its labels; missing ones come from the
   label fields of the struct. *)
Theorem C58_pairs : forall t dat spec body l ref labels v v' ref' f tag path ft lbs kt et u,
  ref_ok ref -> user_fields (fields_of spec) ->
  described t dat spec body l -> decode spec ref labels t v dat = (v', ref', Ok tt) ->
  field_at t l f Block tag path ft -> stands dat body tag lbs ->
  ~ In (fname f) (keys (fields_of spec)) ->
  under E (ftype f) = TMap kt et -> pair_key E kt = true -> elem_class E et = Registered u ->
  (lbs = [] /\ hget v' path = hget v path)
  \/ exists xs es, hget v' path = HMap2 xs /\
    Forall2 (fun lb (e : (string * string) * hval) => List.length (fst lb) <= 2 /\
      (exists own, own_pair u (snd e) own /\ pair_key_of (fst lb) own (fst e)) /\ fresh_element ref dat u lb (snd e))
      (lbs) es /\
    forall k, lookup k xs = option_map (fun y => snd (stored E et u y)) (lookup k (rev es)).
Proof.
  intros t dat spec body l ref labels v v' ref' f tag path ft lbs kt et u RO UF (fs & nulls & U & B & N & A & ND & NT) H (I & (kind & T) & F).
  intros NA NS Ut Pk Ec.
  destruct (auto_pairs E depth type_string zero assignable decode_attr hook distinct spec ref ref' labels t v v' dat fs body nulls l
    RO UF U B N A ND NT f tag kind path ft lbs kt et u H I T F NA NS Ut Pk Ec) as [X|(xs & es & X & Y & Z)]; [left; exact X|].
  right. exists xs, es. split; [exact X|]. split; [|exact Z].
  clear -Y. induction Y as [|lb e lbs es' (A1 & A2 & A3) Y IH]; constructor; [|exact IH]. split; [exact A1|]. split; [|exact A3].
  eexists. split; [apply own_labels_pair|exact A2].
Qed.

(* ----- C32: earlier calls ----- *)

(* The result of a call is the same after any number of earlier calls on the same reference
   map, if no two types share a type string, no entry of the caller's map is under a type
   string (other than a new object of that type), and the specs name entries of the caller. *)
Theorem C32_shared_ref_partial : forall ref ref2 spec labels t v dat,
  after E depth type_string zero assignable decode_attr hook ref ref2 -> ref_ok ref -> user_fields (fields_of spec) ->
  fst (fst (decode spec ref2 labels t v dat)) = fst (fst (decode spec ref labels t v dat)) /\
  snd (decode spec ref2 labels t v dat) = snd (decode spec ref labels t v dat).
Proof.
  intros ref ref2 spec labels t v dat A O U.
  exact (after_same E depth type_string zero assignable decode_attr hook distinct ref ref2 spec labels t v dat A O U).
Qed.
End Decode.
Print Assumptions C55_direct_field.
Print Assumptions C55_attribute_field.
Print Assumptions C56_label_field.
Print Assumptions C57_generic_field.
Print Assumptions C59_all_used_partial.
Print Assumptions C60_other_fields.
Print Assumptions C61_nesting.
Print Assumptions C31_list.
Print Assumptions C31_map.
Print Assumptions C31_map2.
Print Assumptions C31_single.
Print Assumptions C58_own_type.
Print Assumptions C58_pairs.
Print Assumptions C32_shared_ref_partial.

(* ----- the example meets the hypotheses ----- *)

Definition ex_body : list item := match parse_config ex_text with Ok b => b | _ => [] end.
Definition claimed_tags (l : list (gfield * cls)) : list string :=
  map (fun fc => tag_of (fst fc)) (filter (fun fc => claimed (snd fc)) l).
Lemma distinct_tags_intro : forall l, NoDup (claimed_tags l) -> distinct_tags l.
Proof.
  intros l N f c g d tag k k' I J C D T T'.
  assert (H : forall (l : list (gfield * cls)) a b, NoDup (map (fun fc => tag_of (fst fc)) l) -> In a l -> In b l ->
    tag_of (fst a) = tag_of (fst b) -> a = b).
  { clear. induction l as [|x l IH]; intros a b N Ia Ib Ht; [contradiction|]. cbn in N. inversion N as [|? ? N1 N2]; subst.
    destruct Ia as [->|Ia], Ib as [->|Ib]; auto; exfalso; apply N1.
    - rewrite Ht. apply (List.in_map (fun fc => tag_of (fst fc)) _ _ Ib).
    - rewrite <- Ht. apply (List.in_map (fun fc => tag_of (fst fc)) _ _ Ia). }
  assert (X : (f, c) = (g, d)).
  { apply (H _ _ _ N); [apply filter_In; split; assumption|apply filter_In; split; assumption|].
    cbn [fst]. rewrite (tag_of_tag2 _ _ _ T), (tag_of_tag2 _ _ _ T'). reflexivity. }
  injection X as -> ->. auto.
Qed.
Example ex_described : described ex_env (TNamed 0) ex_text (Some ex_spec) ex_body top_classes.
Proof.
  exists top_fields, []. split; [reflexivity|]. split; [vm_compute; reflexivity|]. split; [|split; [exact ex_classes|split]].
  - intro k. split; [intros []|]. intros (e & I & M). vm_compute in I.
    decompose [or] I; clear I; try contradiction; try discriminate;
      match goal with H : IAttr _ _ = IAttr _ _ |- _ => injection H as <- <- end; inversion M.
  - vm_compute. repeat constructor; cbn; intuition discriminate.
  - apply distinct_tags_intro. vm_compute. repeat constructor; cbn; intuition discriminate.
Qed.
Definition is_err {A} (r : result A) : bool := match r with Err _ => true | _ => false end.
Definition top_field (n : nat) : gfield := nth n top_fields (GField "" false "" int).
Ltac at_field := split; [vm_compute; tauto|split; [eexists; vm_compute; reflexivity|vm_compute; reflexivity]].

Example C55_nonvacuous : snd ex_run = Ok tt /\ field_at ex_env 9 (TNamed 0) top_classes (top_field 1) Attr "size" ["Size"] int /\
  hget ex_out ["Size"] = HNative (NInt 5).
Proof. split; [vm_compute; reflexivity|]. split; [at_field|vm_compute; reflexivity]. Qed.

Example C56_nonvacuous : field_at ex_env 9 (TNamed 0) top_classes (top_field 0) Label "name" ["Name"] text /\
  hget ex_out ["Name"] = HText "top".
Proof. split; [at_field|vm_compute; reflexivity]. Qed.
(* A label attribute that is not a string stops the program. *)
Theorem C56_number_refuted : exists dat body, parse_config dat = Ok body /\ (exists e, In (IAttr "name" e) body) /\
  snd (ex_decode (Some ex_spec) ex_ref [] (TNamed 0) (ex_zero (TNamed 0)) dat) = Panic "not a string".
Proof.
  exists (lines ["name = 3"]). eexists. split; [vm_compute; reflexivity|]. split; [eexists; left; reflexivity|].
  vm_compute. reflexivity.
Qed.
Print Assumptions C56_number_refuted.

Example C57_nonvacuous : field_at ex_env 9 (TNamed 0) top_classes (top_field 5) Generic "extra" ["Extra"] (TMap text (TIface [])) /\
  hget ex_out ["Extra"] = HNative (NMap [("a", NInt 1); ("b", NList [NBool true])]) /\
  hget ex_out ["Items"] = HNative (NList [NInt 1; NInt 2]).
Proof. split; [at_field|split; vm_compute; reflexivity]. Qed.
(* A block cannot fill a []interface{} field: it is an error. *)
Theorem C57_slice_block_refuted : exists dat body, parse_config dat = Ok body /\ (exists ls b, In (IBlock "items" ls b) body) /\
  is_err (snd (ex_decode (Some ex_spec) ex_ref [] (TNamed 0) (ex_zero (TNamed 0)) dat)) = true.
Proof.
  exists (lines ["items {"; "  a = 1"; "}"]). eexists. split; [vm_compute; reflexivity|].
  split; [do 2 eexists; left; reflexivity|]. vm_compute. reflexivity.
Qed.
Print Assumptions C57_slice_block_refuted.

(* ----- C59 and C60: what is lost ----- *)

(* C59 in full: what no field claims is an error, and every block is decoded. *)
Definition C59_full : Prop := forall t dat spec body l ref labels v v' ref',
  described ex_env t dat spec body l -> ex_decode spec ref labels t v dat = (v', ref', Ok tt) ->
  forall k e, In (IAttr k e) body -> exists f c kind, In (f, c) l /\ claimed c = true /\ tag2 (ftag f) = Ok (k, kind).
Definition holder_fields : list gfield := match under ex_env (TNamed 4) with TStruct fs => fs | _ => [] end.
Theorem C59_refuted : ~ C59_full.
Proof.
  intro H. set (dat := lines ["w = 1"; "nosuch = null"]).
  assert (X : described ex_env (TNamed 2) dat None [IAttr "w" (ENum 1); IAttr "nosuch" ENull]
    [(GField "W" false (hcl "w") int, Attr)]).
  { exists [GField "W" false (hcl "w") int], ["nosuch"]. split; [reflexivity|]. split; [vm_compute; reflexivity|]. split.
    - intro k. split.
      + intros [<-|[]]. exists ENull. split; [right; left; reflexivity|constructor].
      + intros (e & [I|[I|[]]] & M); injection I as <- <-; [inversion M|left; reflexivity].
    - split; [|split].
      + apply af_field; [reflexivity| |discriminate|constructor].
        eapply class_attr; [reflexivity|intros [X|[]]; discriminate X|discriminate|discriminate|intros []|discriminate
          |apply points_self; discriminate|not_block|not_generic].
      + repeat constructor. intros [].
      + apply distinct_tags_intro. vm_compute. repeat constructor. intros []. }
  destruct (ex_decode None [] [] (TNamed 2) (ex_zero (TNamed 2)) dat) as [[v' r'] o] eqn:D.
  assert (O : o = Ok tt) by (change o with (snd (v', r', o)); rewrite <- D; vm_compute; reflexivity). subst o.
  destruct (H _ _ _ _ _ _ _ _ _ _ X D "nosuch" ENull (or_intror (or_introl eq_refl))) as (f & c & kind & [I|[]] & _ & T).
  injection I as <- <-. vm_compute in T. discriminate.
Qed.
Print Assumptions C59_refuted.
(* A second block for a field of struct type is dropped without an error, even if it could
   not be decoded. *)
Theorem C59_second_block_refuted : exists dat body b, parse_config dat = Ok body /\
  In (IBlock "inner" [] b) body /\ In (IAttr "nosuch" (ENum 1)) b /\
  snd (ex_decode (Some ex_spec) ex_ref [] (TNamed 0) (ex_zero (TNamed 0)) dat) = Ok tt.
Proof.
  exists (lines ["inner {"; "  r = 1"; "}"; "inner {"; "  nosuch = 1"; "}"]). do 2 eexists.
  split; [vm_compute; reflexivity|]. split; [right; left; reflexivity|]. split; [left; reflexivity|]. vm_compute. reflexivity.
Qed.
Print Assumptions C59_second_block_refuted.
Example C59_nonvacuous : In (IAttr "size" (ENum 5)) ex_body /\ (exists b, In (IBlock "many" [] b) ex_body) /\
  is_err (snd (ex_decode None [] [] (TNamed 2) (ex_zero (TNamed 2)) (lines ["w = 1"; "nosuch = 2"]))) = true /\
  is_err (snd (ex_decode None [] [] (TNamed 2) (ex_zero (TNamed 2)) (lines ["w = 1"; "nosuch {"; "}"]))) = true.
Proof.
  split; [vm_compute; tauto|]. split; [eexists; vm_compute; tauto|]. split; vm_compute; reflexivity.
Qed.

Example C60_nonvacuous : hget ex_out ["Skip"] = hget (ex_zero (TNamed 0)) ["Skip"] /\
  hget ex_out ["hidden"] = hget (ex_zero (TNamed 0)) ["hidden"].
Proof. split; vm_compute; reflexivity. Qed.
(* On an error the fields decoded before it have changed. *)
Theorem C60_error_refuted : exists dat, let r := ex_decode (Some ex_spec) ex_ref [] (TNamed 0) (ex_zero (TNamed 0)) dat in
  is_err (snd r) = true /\ hget (fst (fst r)) ["Size"] <> hget (ex_zero (TNamed 0)) ["Size"].
Proof. exists (lines ["size = 5"; "inner {"; "  nosuch = 1"; "}"]). split; [vm_compute; reflexivity|vm_compute; discriminate]. Qed.
Print Assumptions C60_error_refuted.

Example C61_nonvacuous : snd (unmarshal_tree ex_env 9 enc ex_zero ex_assignable ex_attr no_hook 1000 ex_spec ex_ref ["top"]
  (TNamed 0) (ex_zero (TNamed 0)) ex_text) = Ok tt /\
  snd (unmarshal_tree ex_env 9 enc ex_zero ex_assignable ex_attr no_hook 1 ex_spec ex_ref ["top"]
  (TNamed 0) (ex_zero (TNamed 0)) ex_text) = Panic "fuel".
Proof. split; vm_compute; reflexivity. Qed.

(* ----- C31: examples and limits ----- *)

Example ex_ref_ok : ref_ok ex_env enc ex_zero ex_ref.
Proof.
  intros s u N. left. unfold ex_ref. cbn [lookup].
  assert (X : forall c, user_class ex_env enc c -> s <> c) by (intros c U ->; exact (U u N)).
  destruct (eq_dec s "Circle") as [->|_]; [exfalso; apply (X "Circle"); [apply enc_user; discriminate|reflexivity]|].
  destruct (eq_dec s "Square") as [->|_]; [exfalso; apply (X "Square"); [apply enc_user; discriminate|reflexivity]|].
  reflexivity.
Qed.
Example ex_user_fields : user_fields ex_env enc (fields_of (Some ex_spec)).
Proof.
  assert (S : forall s c, (s = circle \/ s = square) -> spec_class s c -> user_class ex_env enc c).
  { intros s c [->| ->] H; inversion H; subst; apply enc_user; discriminate. }
  intros c (name & v & s & I & V & H). apply (S s); [|exact H].
  cbn in I. decompose [or] I; clear I; try contradiction;
    match goal with X : (_, _) = (_, _) |- _ => injection X as <- <- end; inversion V; subst; auto; cbn in *;
    repeat match goal with X : _ \/ _ |- _ => destruct X | X : False |- _ => destruct X end; subst; auto;
    match goal with X : (_, _) = (_, _) |- _ => injection X as <- <-; auto end.
Qed.
Example C31_nonvacuous :
  map pointee_type (entries (hget ex_out ["Shapes"])) = [Some (TNamed 1); Some (TNamed 1)] /\
  map (fun x => hget (pointee x) ["Id"]) (entries (hget ex_out ["Shapes"])) = [HText ""; HText "b"] /\
  map pointee_type (entries (hget ex_out ["By"])) = [Some (TNamed 2)] /\
  pointee_type (hget ex_out ["Shape"]) = Some (TNamed 2).
Proof. repeat split; vm_compute; reflexivity. Qed.
Example C31_map2_nonvacuous : let r := ex_decode (Some (SStruct "H" (Some [("Shape", VSingle circle); ("Pairs", VMap2 [("a", [("b", circle)]); ("c", [("d", square)])])])))
    ex_ref [] (TNamed 4) (ex_zero (TNamed 4)) (lines ["pairs " +++ quote +++ "c" +++ quote +++ " " +++ quote +++ "d" +++ quote +++ " {"; "  w = 1"; "}";
      "pairs " +++ quote +++ "a" +++ quote +++ " {"; "  id = " +++ quote +++ "k" +++ quote; "}"]) in
  snd r = Ok tt /\ match hget (fst (fst r)) ["Pairs"] with
                   | HMap2 m => map (fun kx => (fst kx, pointee_type (snd kx))) m
                   | _ => []
                   end = [(("c", "d"), Some (TNamed 2)); (("a", "k"), Some (TNamed 1))].
Proof. split; vm_compute; reflexivity. Qed.

Definition by_text : string := lines ["by " +++ quote +++ "other" +++ quote +++ " {"; "}"].
Definition by_spec (cs : list (string * sstruct)) : option sstruct := 
  Some (SStruct "Top" (Some [("Shape", VSingle square); ("Shapes", VList [circle]); ("By", VMap cs)])).
(* The default class of a map spec depends on the iteration order of the spec's map. *)
Theorem C31_default_order_refuted : exists cs cs', Permutation cs cs' /\ NoDup (map fst cs) /\
  let r := ex_decode (by_spec cs) ex_ref [] (TNamed 0) (ex_zero (TNamed 0)) by_text in
  let r' := ex_decode (by_spec cs') ex_ref [] (TNamed 0) (ex_zero (TNamed 0)) by_text in
  snd r = Ok tt /\ snd r' <> Ok tt.
Proof.
  exists [("one", circle); ("two", square)], [("two", square); ("one", circle)]. split; [apply perm_swap|].
  split; [repeat constructor; cbn; intuition discriminate|]. split; vm_compute; [reflexivity|discriminate].
Qed.
Print Assumptions C31_default_order_refuted.
(* With two labels, a block whose first label is in the spec and whose second is not gets a
   class of another first label. *)
Theorem C31_other_label_refuted : exists cs dat x,
  lookup "c" cs = Some [("d", square)] /\
  let r := ex_decode (Some (SStruct "H" (Some [("Shape", VSingle circle); ("Pairs", VMap2 cs)]))) ex_ref [] (TNamed 4) (ex_zero (TNamed 4)) dat in
  dat = lines ["pairs " +++ quote +++ "c" +++ quote +++ " " +++ quote +++ "e" +++ quote +++ " {"; "}"] /\
  snd r = Ok tt /\ hget (fst (fst r)) ["Pairs"] = HMap2 [(("c", "e"), x)] /\ pointee_type x = Some (TNamed 1).
Proof.
  exists [("a", [("b", circle)]); ("c", [("d", square)])]. do 2 eexists. split; [reflexivity|].
  split; [reflexivity|]. split; [vm_compute; reflexivity|]. split; [vm_compute; reflexivity|reflexivity].
Qed.
Print Assumptions C31_other_label_refuted.
(* An empty list of classes stops the program. *)
Theorem C31_empty_list_refuted : exists dat,
  snd (ex_decode (Some (SStruct "Top" (Some [("Shape", VSingle square); ("Shapes", VList []); ("By", VMap [("one", square)])]))) ex_ref [] (TNamed 0) (ex_zero (TNamed 0)) dat)
  = Panic "index out of range [0] with length 0".
Proof. exists (lines ["shapes {"; "}"]). vm_compute. reflexivity. Qed.
Print Assumptions C31_empty_list_refuted.

(* ----- C58 ----- *)

Example C58_nonvacuous : pointee_type (hget ex_out ["Inner"]) = Some (TNamed 1) /\
  hget (pointee (hget ex_out ["Inner"])) ["R"] = HNative (NInt 9) /\
  map (fun x => (pointee_type x, hget (pointee x) ["Id"])) (entries (hget ex_out ["Many"]))
  = [(Some (TNamed 1), HText "x"); (Some (TNamed 1), HText "")].
Proof. repeat split; vm_compute; reflexivity. Qed.
Example C58_pairs_nonvacuous : let r := ex_decode None [] [] (TNamed 5) (ex_zero (TNamed 5))
    (lines ["pairs " +++ quote +++ "c" +++ quote +++ " " +++ quote +++ "d" +++ quote +++ " {"; "}";
      "pairs " +++ quote +++ "a" +++ quote +++ " {"; "  id = " +++ quote +++ "k" +++ quote; "}"]) in
  snd r = Ok tt /\
  match hget (fst (fst r)) ["Pairs"] with
  | HMap2 xs => map (fun kx => (fst kx, pointee_type (snd kx), hget (pointee (snd kx)) ["Id"])) xs
      = [(("c", "d"), Some (TNamed 1), HText ""); (("a", "k"), Some (TNamed 1), HText "k")]
  | _ => False
  end.
Proof. split; vm_compute; reflexivity. Qed.

(* ----- C32: limits ----- *)

Example C32_nonvacuous : after ex_env 9 enc ex_zero ex_assignable ex_attr no_hook ex_ref (snd (fst ex_run)) /\
  snd (fst ex_run) <> ex_ref.
Proof.
  split.
  - refine (after_call _ _ _ _ _ _ _ ex_ref (Some ex_spec) ["top"] (TNamed 0) (ex_zero (TNamed 0)) ex_text ex_out
      (snd (fst ex_run)) (snd ex_run) _ ex_user_fields _ _).
    + change (ex_run = (ex_out, snd (fst ex_run), snd ex_run)). unfold ex_out. destruct ex_run as [[a b] c]. reflexivity.
    + apply after_none.
  - intro H. apply (f_equal (@List.length _)) in H. vm_compute in H. discriminate H.
Qed.
(* loopFields stores classes it made up in the caller's spec, but their objects in the
   caller's reference map: the same spec does not work with another reference map. *)
Theorem C32_spec_reuse_refuted : exists dat,
  let spec := ex_spec in
  let spec' := spec_after ex_env 9 enc ex_zero [] spec (TNamed 0) ex_ref in
  snd (ex_decode (Some spec) ex_ref [] (TNamed 0) (ex_zero (TNamed 0)) dat) = Ok tt /\
  snd (ex_decode (Some spec') ex_ref [] (TNamed 0) (ex_zero (TNamed 0)) dat) = Err "ref not found".
Proof. exists (lines ["inner {"; "}"]). split; vm_compute; reflexivity. Qed.
Print Assumptions C32_spec_reuse_refuted.
(* An entry of the caller's map under a type string is replaced by an earlier call. *)
Definition filled : hval := hset (ex_zero (TNamed 1)) ["R"] (HNative (NInt 7)).
Theorem C32_type_string_refuted : exists ref dat,
  let spec := Some (SStruct "H" (Some [("Shape", VSingle (SStruct (enc (TNamed 1)) None)); ("Pairs", VMap2 [])])) in
  let call r := fst (fst (ex_decode spec r [] (TNamed 4) (ex_zero (TNamed 4)) dat)) in
  let ref' := snd (fst (ex_decode (Some ex_spec) ref [] (TNamed 0) (ex_zero (TNamed 0)) "")) in
  hget (pointee (hget (call ref) ["Shape"])) ["R"] = HNative (NInt 7) /\
  hget (pointee (hget (call ref') ["Shape"])) ["R"] = HOpaque "zero".
Proof.
  exists [(enc (TNamed 1), RObj (TNamed 1) filled)], (lines ["shape {"; "}"]). split; vm_compute; reflexivity.
Qed.
Print Assumptions C32_type_string_refuted.

(* ----- C33: objects as blocks ----- *)

(* C33 in full: an attribute that is a list of objects gives one block per object with the
   object's text. *)
Definition list_of (bodies : list string) : string :=
  "[" +++ String.concat "," (map (fun b => "{" +++ b +++ "}") bodies) +++ "]".
Definition C33_full : Prop := forall bodies e q z,
  (forall b, In b bodies -> exists m, parse_config ("x = {" +++ b +++ "}") = Ok [IAttr "x" (EObj m)]) ->
  parse_file ("x = " +++ list_of bodies) = Ok [PAttr "x" e q z] ->
  forall v, means e v -> exists bs, attr_blocks ("x = " +++ list_of bodies) (mkAttr "x" v q z) = Ok bs /\
    map (block_bytes ("x = " +++ list_of bodies)) bs = bodies.

(* It holds for texts of objects that are not empty and have no closing brace, if one character
   follows the equals sign before them. *)
Theorem C33_split_partial : forall dat a pre c text post bodies,
  dat = pre +++ String c (text +++ post) -> a_eq a = String.length pre ->
  a_end a = S (String.length pre + String.length text) ->
  (exists l, a_value a = CTup l) \/ (exists m, a_value a = CObj m) ->
  objects_text bodies text ->
  exists bs, attr_blocks dat a = Ok bs /\ map (block_bytes dat) bs = bodies /\
    forall b, In b bs -> b_type b = a_name a /\ b_labels b = [].
Proof.
  intros dat a pre c text post bodies D Q Z C O. eapply split_objects; eauto.
  destruct C as [(l & ->)|(m & ->)]; reflexivity.
Qed.
Print Assumptions C33_split_partial.

Definition two_objects : string := lines ["many = [{"; "r = 1"; "}, {"; "id = " +++ quote +++ "z" +++ quote; "}]"].
Example C33_nonvacuous : let r := ex_decode (Some ex_spec) ex_ref [] (TNamed 0) (ex_zero (TNamed 0)) two_objects in
  snd r = Ok tt /\ map (fun x => (hget (pointee x) ["Id"], hget (pointee x) ["R"])) (entries (hget (fst (fst r)) ["Many"]))
  = [(HText "", HNative (NInt 1)); (HText "z", HOpaque "zero")].
Proof. split; vm_compute; reflexivity. Qed.

(* So the objects of an attribute are the elements of the field (C31, C58). *)
Example C31_objects_nonvacuous : exists body, parse_config two_objects = Ok body /\
  stands two_objects body "many" [([], [IAttr "r" (ENum 1)]); ([], [IAttr "id" (EStr "z")])].
Proof.
  eexists. split; [vm_compute; reflexivity|].
  refine (stands_objects _ _ _ _ _ "many =" " " (lines ["[{"; "r = 1"; "}, {"; "id = " +++ quote +++ "z" +++ quote] +++ "}]") nl
    [nl +++ "r = 1" +++ nl; nl +++ "id = " +++ quote +++ "z" +++ quote +++ nl]
    [[IAttr "r" (ENum 1)]; [IAttr "id" (EStr "z")]] _ _ _ _ _).
  - vm_compute. reflexivity.
  - left. reflexivity.
  - reflexivity.
  - refine (ot_next "[" _ _ _ _ _ _ (ot_next ", " _ _ _ _ _ _ (ot_end "]" _)));
      try discriminate; vm_compute; repeat split; discriminate.
  - repeat constructor.
Qed.

(* False in full: an object inside an object is cut at the inner closing brace. *)
Theorem C33_refuted : ~ C33_full.
Proof.
  intro H. specialize (H ["a = {b = 1}"] (ETuple [EObj [("a", EObj [("b", ENum 1)])]]) 3 19).
  destruct (H ltac:(intros b [<-|[]]; eexists; vm_compute; reflexivity) ltac:(vm_compute; reflexivity)
    (CTup [CObj [("a", CObj [("b", CNum (mkD 1 0))])]])) as (bs & B & X).
  - constructor. constructor; [|constructor].
    apply (means_obj [("a", EObj [("b", ENum 1)])] [("a", CObj [("b", CNum (mkD 1 0))])]).
    constructor; [|constructor]. split; [reflexivity|].
    apply (means_obj [("b", ENum 1)] [("b", CNum (mkD 1 0))]). constructor; [|constructor].
    split; [reflexivity|]. constructor.
  - vm_compute in B. injection B as <-. vm_compute in X. discriminate X.
Qed.
Print Assumptions C33_refuted.
(* So is one with a closing brace in a string; an empty object is dropped; without a space
   after the equals sign the first object is dropped; objects written on one line with commas
   are not decoded. *)
Definition many_of (dat : string) : result (list hval) :=
  let r := ex_decode (Some ex_spec) ex_ref [] (TNamed 0) (ex_zero (TNamed 0)) dat in
  do u <- snd r; Ok (entries (hget (fst (fst r)) ["Many"])).
Theorem C33_brace_in_text_refuted : exists dat body l, parse_config dat = Ok body /\
  In (IAttr "many" (ETuple l)) body /\ is_err (many_of dat) = true.
Proof.
  exists (lines ["many = [{"; "id = " +++ quote +++ "}" +++ quote; "}]"]). do 2 eexists.
  split; [vm_compute; reflexivity|]. split; [left; reflexivity|vm_compute; reflexivity].
Qed.
Theorem C33_empty_object_refuted : exists dat body, parse_config dat = Ok body /\
  In (IAttr "many" (ETuple [EObj []; EObj [("r", ENum 1)]])) body /\
  exists x, many_of dat = Ok [x].
Proof.
  exists (lines ["many = [{}, {"; "r = 1"; "}]"]). eexists.
  split; [vm_compute; reflexivity|]. split; [left; reflexivity|]. eexists. vm_compute. reflexivity.
Qed.
Theorem C33_no_space_refuted : exists dat body, parse_config dat = Ok body /\
  In (IAttr "inner" (EObj [("r", ENum 1)])) body /\
  let r := ex_decode (Some ex_spec) ex_ref [] (TNamed 0) (ex_zero (TNamed 0)) dat in
  snd r = Ok tt /\ hget (fst (fst r)) ["Inner"] = hget (ex_zero (TNamed 0)) ["Inner"].
Proof.
  exists (lines ["inner ={"; "r = 1"; "}"]). eexists.
  split; [vm_compute; reflexivity|]. split; [left; reflexivity|]. split; vm_compute; reflexivity.
Qed.
Theorem C33_comma_refuted : exists dat body, parse_config dat = Ok body /\
  In (IAttr "many" (ETuple [EObj [("r", ENum 1); ("id", EStr "a")]])) body /\ is_err (many_of dat) = true.
Proof.
  exists (lines ["many = [{r = 1, id = " +++ quote +++ "a" +++ quote +++ "}]"]). eexists.
  split; [vm_compute; reflexivity|]. split; [left; reflexivity|vm_compute; reflexivity].
Qed.
Print Assumptions C33_brace_in_text_refuted.
Print Assumptions C33_empty_object_refuted.
Print Assumptions C33_no_space_refuted.
Print Assumptions C33_comma_refuted.

(* ----- C62: the texts of blocks and attributes ----- *)

Theorem C62_file : forall s its, parse_file s = Ok its -> parse_config s = Ok (map erase its).
Proof. exact file_sound. Qed.
Print Assumptions C62_file.
(* So the files that are read are the documents of the grammar. *)
Theorem C62_document : forall s b, hcl_document s b <-> exists its, parse_file s = Ok its /\ map erase its = b.
Proof.
  intros s b. rewrite <- document_iff. split; [apply file_complete|]. intros (its & P & <-). apply file_sound. exact P.
Qed.
Print Assumptions C62_document.
(* The bytes between the braces of a block are the text of its body. *)
Theorem C62_block_text : forall s its k ls o c b, parse_file s = Ok its -> In (PBlock k ls o c b) its ->
  parse_config (slice s o c) = Ok b.
Proof. exact block_text_parses. Qed.
Print Assumptions C62_block_text.
(* The bytes from the equals sign to the end of an attribute are its expression. *)
Theorem C62_attribute_text : forall s its k e q z, parse_file s = Ok its -> In (PAttr k e q z) its ->
  parse_config ("x = " +++ slice s q z) = Ok [IAttr "x" e].
Proof. exact attr_text_parses. Qed.
Print Assumptions C62_attribute_text.
Example C62_nonvacuous : exists its, parse_file ex_text = Ok its /\ map erase its = ex_body /\ List.length its = 10.
Proof. eexists. split; [vm_compute; reflexivity|]. split; vm_compute; reflexivity. Qed.
