(* C63: writing structs as HCL text. *)

From Verif Require Import Base GoType DetModel CtyModel CtySpec HclModel HclSpec HclParse TagModel StructModel
  StructSpec MarshalModel MarshalSpec MarshalProofs HclGrammar HclGrammarProofs.
From Coq Require Import Lia.
Local Open Scope nat_scope.

(* ----- an example ----- *)

Definition hcl (s : string) : string := "hcl:" +++ quote +++ s +++ quote.
Definition text := TBasic "string".
Definition int := TBasic "int".
Definition bool_t := TBasic "bool".
Definition inner := TNamed 1.
Definition any := TIface [].
Definition ex_env : env := [
  mkNamed "p" "Top" (TStruct [
    GField "Kind" false (hcl "kind,label") text;
    GField "Size" false (hcl "size,optional") int;
    GField "Title" false (hcl "title") text;
    GField "Tags" false (hcl "tags,optional") (TSlice text);
    GField "Opts" false (hcl "opts") (TMap text text);
    GField "Zero" false (hcl "zero,optional") int;
    GField "Count" false (hcl "count") (TPtr int);
    GField "None" false (hcl "none,block") (TSlice (TPtr inner));
    GField "Items" false (hcl "items,optional") (TSlice any);
    GField "Extra" false (hcl "extra,block") (TMap text any);
    GField "Inner" false (hcl "inner,block") inner;
    GField "Ptr" false (hcl "ptr,block") (TPtr inner);
    GField "Face" false (hcl "face,block") any;
    GField "Many" false (hcl "many,block") (TSlice (TPtr inner));
    GField "By" false (hcl "by,block") (TMap text inner);
    GField "Base" true "" (TNamed 2);
    GField "Debug" false "" bool_t;
    GField "hidden" false (hcl "hidden") text;
    GField "Skip" false (hcl "-") text]);
  mkNamed "p" "Inner" (TStruct [GField "Id" false (hcl "id,label") text; GField "R" false (hcl "r,optional") int]);
  mkNamed "p" "Base" (TStruct [GField "Note" false (hcl "note,optional") text]);
  mkNamed "p" "Color" text].

Definition record (l : list (list string * hval)) : hval :=
  HStruct (fun p => match find (fun kv => path_eqb (fst kv) p) l with Some kv => snd kv | None => HOpaque "zero" end).
Definition ex_inner (id : string) (r : Z) : hval := record [(["Id"], HText id); (["R"], HNative (NInt r))].
Definition ex_value : hval := record [
  (["Kind"], HText "top");
  (["Size"], HNative (NInt 5));
  (["Title"], HText ("a " +++ quote +++ "b" +++ quote));
  (["Tags"], HSlice [HText "x"; HText "y"]);
  (["Opts"], HMap [("k", HText "1"); ("l", HText "2")]);
  (["Count"], HPtr int (HNative (NInt (-7))));
  (["None"], HSlice []);
  (["Items"], HNative (NList [NInt 1; NStr "two"]));
  (["Extra"], HNative (NMap [("a", NInt 1); ("b", NMap [("c", NBool true)])]));
  (["Inner"], ex_inner "in" 1);
  (["Ptr"], HPtr inner (ex_inner "pt" 2));
  (["Face"], HPtr inner (ex_inner "fc" 0));
  (["Many"], HSlice [HPtr inner (ex_inner "m0" 3); HPtr inner (ex_inner "m1" 4)]);
  (["By"], HMap [("one", ex_inner "one" 5); ("two", ex_inner "other" 6)]);
  (["Base"; "Note"], HText "embedded");
  (["Debug"], HNative (NBool true));
  (["hidden"], HText "h");
  (["Skip"], HText "s")].

(* The library, for the example. *)
Definition ex_is_zero (t : gtype) (v : hval) : bool :=
  match v with
  | HOpaque "zero" => true
  | HPtr _ _ => false
  | _ => match under ex_env t, v with
         | TBasic _, HText "" => true
         | TBasic _, HNative (NInt 0) => true
         | TBasic _, HNative (NBool false) => true
         | _, _ => false
         end
  end.
Definition ex_basic (t : gtype) (v : hval) : result cval :=
  match under ex_env t, v with
  | TBasic "string", HText s => Ok (CStr s)
  | TBasic "int", HNative (NInt z) => Ok (CNum (mkD z 0))
  | TBasic "bool", HNative (NBool b) => Ok (CBool b)
  | _, _ => Err "unsuitable"
  end.
Definition ex_to_cty (t : gtype) (v : hval) : result cval :=
  match under ex_env t, v with
  | TSlice et, HSlice l => do cs <- mapr (ex_basic et) l; Ok (CTup cs)
  | TMap _ et, HMap m => do cs <- mapr (fun kv => do c <- ex_basic et (snd kv); Ok (fst kv, c)) m; Ok (CObj cs)
  | _, _ => ex_basic t v
  end.
Definition ex_fmt (t : gtype) (v : hval) : string :=
  match v with
  | HNative (NInt z) => dec_Z z
  | HNative (NBool b) => if b then "true" else "false"
  | _ => ""
  end.
Definition ex_len0 (v : hval) : bool := match v with HOpaque "zero" => true | _ => false end.
Definition no_mhook (t : gtype) : option (hval -> result string) := None.
Definition no_align (ks : list string) (k : string) : nat := 0.
Definition ex_marshal (E : env) := marshal_value no_align E 9 ex_is_zero ex_to_cty ex_fmt ex_len0 no_mhook 9.
Definition lines (l : list string) : string := fold_right (fun s r => s +++ nl +++ r) "" l.


(* ----- C63: the text of a struct ----- *)

(* What is needed of the libraries: pointers that are there are not zero, nil slices and maps
   have no elements, and %v writes integers and booleans as HCL does. *)
Definition library_ok (E : env) (is_zero : gtype -> hval -> bool) (to_cty : gtype -> hval -> result cval)
    (fmt_v : gtype -> hval -> string) (len0 : hval -> bool) : Prop :=
  (forall t u w, is_zero t (HPtr u w) = false) /\
  (forall t v, is_coll E t -> is_zero t v = true -> no_elems len0 v = true) /\
  (forall u w k z, under E u = TBasic k -> int_kind k -> to_cty u w = Ok (CNum (mkD z 0)) -> fmt_v u w = dec_Z z) /\
  (forall u w b, under E u = TBasic "bool" -> to_cty u w = Ok (CBool b) -> fmt_v u w = if b then "true" else "false").

(* C63 in full: whatever the struct, it is written, and what is written is HCL. *)
Definition C63_full : Prop := forall align E is_zero to_cty fmt_v len0 mhook,
  library_ok E is_zero to_cty fmt_v len0 -> forall t v, is_struct E t ->
  (forall t', mhook t' = None) -> is_zero t v = false ->
  exists d, forall depth fuel, d <= depth -> d <= fuel ->
    exists text its, marshal_value align E depth is_zero to_cty fmt_v len0 mhook fuel t v = Ok text /\
      parse_config text = Ok its.

(* It holds of the values that can_write describes: the text parses, to the attributes, blocks
   and labels that the fields have.  x is the struct or, if addr, a pointer to it. *)
Theorem C63_struct_written_partial : forall align E is_zero to_cty fmt_v len0 mhook,
  library_ok E is_zero to_cty fmt_v len0 ->
  forall (addr : bool) t v pt x, can_write E is_zero to_cty len0 (fun u => mhook u <> None) addr t v ->
  (if addr then under E pt = TPtr t /\ exists u, x = HPtr u v else pt = t /\ x = v) ->
  is_zero pt x = false ->
  exists text labels its d, represents E is_zero to_cty len0 addr t v [] labels its /\
    parse_config text = Ok its /\ hcl_document text its /\ bare_values text /\
    forall depth fuel, d <= depth -> d <= fuel ->
      marshal_value align E depth is_zero to_cty fmt_v len0 mhook fuel pt x = Ok text.
Proof.
  intros align E is_zero to_cty fmt_v len0 mhook (L1 & L2 & L3 & L4) addr t v pt x C D Z.
  enough (H : exists text labels its d, represents E is_zero to_cty len0 addr t v [] labels its /\ (parse_config text = Ok its /\ exists ts, PlainScan.scan LNone text = Ok ts) /\
    forall depth fuel, d <= depth -> d <= fuel -> marshal_value align E depth is_zero to_cty fmt_v len0 mhook fuel pt x = Ok text).
  { destruct H as (text & labels & its & d & H1 & (H2 & ts & Sc) & H3). exists text, labels, its, d. split; [exact H1|]. split; [exact H2|]. split; [apply document_iff; exact H2|].
    split; [exact (plain_bare _ _ Sc)|exact H3]. }
  exact (marshal_parses align E is_zero to_cty fmt_v len0 mhook L1 L2 L3 L4 addr t v pt x C D Z).
Qed.
Print Assumptions C63_struct_written_partial.

(* ----- the example ----- *)

Definition ex_items : list item := [
  IAttr "size" (ENum 5);
  IAttr "title" (EStr ("a " +++ quote +++ "b" +++ quote));
  IAttr "tags" (ETuple [EStr "x"; EStr "y"]);
  IAttr "opts" (EObj [("k", EStr "1"); ("l", EStr "2")]);
  IAttr "note" (EStr "embedded");
  IAttr "debug" (EBool true);
  IAttr "count" (ENum (-7));
  IAttr "none" (ETuple []);
  IAttr "items" (ETuple [ENum 1; EStr "two"]);
  IBlock "extra" [] [IAttr "a" (ENum 1); IBlock "b" [] [IAttr "c" (EBool true)]];
  IBlock "inner" ["in"] [IAttr "r" (ENum 1)];
  IBlock "ptr" ["pt"] [IAttr "r" (ENum 2)];
  IBlock "face" ["fc"] [];
  IBlock "many" ["m0"] [IAttr "r" (ENum 3)];
  IBlock "many" ["m1"] [IAttr "r" (ENum 4)];
  IBlock "by" ["one"] [IAttr "r" (ENum 5)];
  IBlock "by" ["two"; "other"] [IAttr "r" (ENum 6)]].

Lemma ex_library : library_ok ex_env ex_is_zero ex_to_cty ex_fmt ex_len0.
Proof.
  repeat split.
  - intros t v (et & He) Z. unfold ex_is_zero in Z.
    assert (U : match under ex_env t with TBasic _ => False | _ => True end).
    { destruct He as [H|(k & H)]; rewrite H; exact Logic.I. }
    destruct v; try (destruct (under ex_env t); [discriminate|discriminate|discriminate|discriminate|discriminate|discriminate|discriminate|contradiction]).
    + cbn [no_elems]. unfold ex_len0.
      repeat match type of Z with context [match ?x with _ => _ end] => destruct x; try discriminate; try contradiction end.
      reflexivity.
  - intros u w k z U K H. unfold ex_to_cty, ex_basic in H. rewrite U in H.
    repeat match type of H with context [match ?x with _ => _ end] => destruct x; try discriminate end.
    injection H as ->. reflexivity.
  - intros u w b U H. unfold ex_to_cty, ex_basic in H. rewrite U in H.
    destruct w; try discriminate. destruct n; try discriminate. injection H as ->. reflexivity.
Qed.

Ltac none := vm_compute; repeat constructor; cbn; intuition discriminate.
Ltac leaf := first
  [ apply lv_nil
  | apply lv_hidden; [reflexivity|]
  | eapply lv_dash; [reflexivity|]
  | eapply lv_embedded; [reflexivity|reflexivity|reflexivity|reflexivity| |]
  | eapply lv_embedded_ptr; [reflexivity|reflexivity|reflexivity|reflexivity|reflexivity| |]
  | eapply lv_field; [reflexivity|reflexivity|discriminate|discriminate|] ].
Ltac pointers := intros; repeat match goal with H : embedded_ptr _ _ _ _ _ |- _ =>
  inversion H; clear H; subst;
  match goal with I : In _ _ |- _ => cbn [In] in I; repeat (destruct I as [<-|I]; [try discriminate|]); try destruct I end;
  try reflexivity;
  repeat match goal with U : under _ _ = TPtr ?u |- _ => is_var u; vm_compute in U; injection U as <- end;
  match goal with U : under _ _ = TStruct ?gs |- _ => is_var gs; vm_compute in U; injection U as <- end end.
Lemma ex_number : forall z, writable (CNum (mkD z 0)).
Proof. constructor. Qed.
Ltac each_in := let H := fresh in cbn [In app]; intros ? ? H;
  repeat (destruct H as [H|H]; [injection H as <- <-|]); [..|destruct H].
Ltac not_hollow := intros ((? & F) & ? & ? & F' & _); first [discriminate F|discriminate F'].
Ltac plain_goal := cbn; repeat split; try discriminate; try exact Logic.I; unfold text_char; auto.

Lemma ex_can_inner : forall addr id r, quotable id -> can_write ex_env ex_is_zero ex_to_cty ex_len0 (fun u => no_mhook u <> None) addr inner (ex_inner id r).
Proof.
  intros addr id r Q. eapply can_struct; [reflexivity|repeat leaf| | | | |pointers|].
  - destruct addr; intros; auto.
  - none.
  - none.
  - each_in; split; reflexivity.
  - each_in.
    + change (hget _ _) with (HText id). destruct (string_dec id "") as [->|N]; [apply can_absent; split; [reflexivity|intros (fs & F); discriminate]|].
      eapply can_label; [reflexivity|reflexivity| |exact Q]. destruct id; [congruence|reflexivity].
    + change (hget _ _) with (HNative (NInt r)). destruct r; [apply can_absent; split; [reflexivity|intros (fs & F); discriminate]|..];
      (eapply can_attr; [right; right; reflexivity|reflexivity|left; eexists; split; [reflexivity|exact Logic.I]|reflexivity|constructor]).
Qed.

Ltac body_ok := constructor; [none|each_in].
Example C63_nonvacuous :
  can_write ex_env ex_is_zero ex_to_cty ex_len0 (fun u => no_mhook u <> None) true (TNamed 0) ex_value /\
  exists t, ex_marshal ex_env (TPtr (TNamed 0)) (HPtr (TNamed 0) ex_value) = Ok t /\ parse_config t = Ok ex_items.
Proof.
  split; [|eexists; split; [vm_compute; reflexivity|]; vm_compute; reflexivity].
  eapply can_struct; [reflexivity|repeat leaf| | | | |pointers|].
  - intros; auto.
  - none.
  - none.
  - each_in; split; reflexivity.
  - each_in; cbn [hget ex_value record find fst snd path_eqb].
    + eapply can_label; [reflexivity|reflexivity|reflexivity|plain_goal].
    + eapply can_attr; [right; right; reflexivity|reflexivity|left; eexists; split; [reflexivity|exact Logic.I]|reflexivity|constructor].
    + eapply can_attr; [left; reflexivity|reflexivity|left; eexists; split; [reflexivity|exact Logic.I]|reflexivity|constructor; plain_goal].
    + eapply can_attr; [right; right; reflexivity|reflexivity| |reflexivity|].
      * right. exists text. split; [left; reflexivity|]. split; [eexists; split; [reflexivity|exact Logic.I]|]. intro H; inversion H.
      * constructor. intros c [<-|[<-|[]]]; constructor; plain_goal.
    + eapply can_attr; [left; reflexivity|reflexivity| |reflexivity|].
      * right. exists text. split; [right; eexists; reflexivity|]. split; [eexists; split; [reflexivity|exact Logic.I]|]. intro H; inversion H.
      * constructor; [none|]. each_in; (split; [|constructor; plain_goal]).
        all: repeat split; reflexivity || discriminate.
    + apply can_absent. split; [reflexivity|]. intros (fs & F). discriminate.
    + eapply can_number; [reflexivity|auto|]. eapply number_int; [reflexivity|left; reflexivity|reflexivity].
    + eapply can_empty; [apply th_self; discriminate|eexists; left; reflexivity|reflexivity|constructor].
    + eapply can_list; [apply th_self; discriminate|reflexivity|eexists; reflexivity|reflexivity|discriminate|].
      apply su_list. intros v [<-|[<-|[]]]; (apply su_scalar; [constructor|intros _ [F|[F|[F|F]]]; discriminate F]).
      * split; [discriminate|reflexivity].
      * plain_goal.
    + eapply can_map; [apply th_self; discriminate|reflexivity|eexists; reflexivity|reflexivity|discriminate|].
      body_ok; (split; [split; [split; reflexivity|discriminate]|]).
      * apply su_scalar; [constructor; split; [discriminate|reflexivity]|discriminate].
      * apply su_block; [body_ok; (split; [split; [split; reflexivity|discriminate]|]); apply su_scalar; [constructor|discriminate]|].
        right. exists "c", (NBool true). split; [left; reflexivity|]. intro m. split; discriminate.
    + eapply can_block; [apply holds_struct; eexists; reflexivity|left; reflexivity|not_hollow|apply ex_can_inner; plain_goal].
    + eapply can_block; [eapply holds_ptr; [reflexivity|eexists; reflexivity]|left; reflexivity|not_hollow|apply ex_can_inner; plain_goal].
    + eapply can_block; [eapply holds_iface; [eexists; reflexivity|eexists; reflexivity]|left; reflexivity|not_hollow|apply ex_can_inner; plain_goal].
    + eapply can_blocks; [apply th_self; discriminate|reflexivity|reflexivity|discriminate| | | | |].
      * intros (ms & F). discriminate.
      * intros (u & <- & F). exact F.
      * intros (et & [F|(k & F)]); discriminate.
      * intros x [<-|[<-|[]]] _; do 3 eexists; (eapply holds_ptr; [reflexivity|eexists; reflexivity]).
      * intros x a u w [<-|[<-|[]]] _ _ H; inversion H; subst; try (destruct H0; discriminate); apply ex_can_inner; plain_goal.
    + eapply can_entries; [apply th_self; discriminate|reflexivity|apply ents_map|reflexivity|discriminate| |].
      * intros ls x [H|[H|[]]]; injection H as <- <-; (split; [repeat constructor; plain_goal|]);
        (split; [intros (ms & F); discriminate|]); do 3 eexists; (apply holds_struct; eexists; reflexivity).
      * intros ls x a u w [H|[H|[]]] Hh; injection H as <- <-; inversion Hh; subst; apply ex_can_inner; plain_goal.
    + eapply can_attr; [right; right; reflexivity|reflexivity|left; eexists; split; [reflexivity|exact Logic.I]|reflexivity|constructor; plain_goal].
    + eapply can_attr; [left; reflexivity|reflexivity|left; eexists; split; [reflexivity|exact Logic.I]|reflexivity|constructor].
Qed.

(* The fields of a struct that is embedded as a pointer are written as its own, also when it is
   not addressable itself. *)
Definition ex_outer : gtype := TStruct [
  GField "Base" true "" (TPtr (TNamed 2)); GField "X" false (hcl "x,optional") int].
Definition ex_outer_value : hval := record [
  (["Base"], HPtr (TNamed 2) (record [(["Note"], HText "n")])); (["*Base"; "Note"], HText "n");
  (["X"], HNative (NInt 4))].
Example C63_embedded_pointer :
  can_write ex_env ex_is_zero ex_to_cty ex_len0 (fun u => no_mhook u <> None) false ex_outer ex_outer_value /\
  exists t, ex_marshal ex_env ex_outer ex_outer_value = Ok t /\
    parse_config t = Ok [IAttr "note" (EStr "n"); IAttr "x" (ENum 4)].
Proof.
  split; [|eexists; split; [vm_compute; reflexivity|]; vm_compute; reflexivity].
  eapply can_struct; [reflexivity|repeat leaf| | | | |pointers|].
  - intros; auto.
  - none.
  - none.
  - each_in; split; reflexivity.
  - each_in.
    + eapply can_attr; [right; right; reflexivity|reflexivity|left; eexists; split; [reflexivity|exact Logic.I]|reflexivity|constructor; plain_goal].
    + eapply can_attr; [right; right; reflexivity|reflexivity|left; eexists; split; [reflexivity|exact Logic.I]|reflexivity|constructor].
Qed.

(* A struct in an interface is written as a block; a zero one is left out. *)
Definition ex_faces : gtype := TStruct [
  GField "Face" false (hcl "face,block") any; GField "Gone" false (hcl "gone,block") any;
  GField "All" false (hcl "all,block") (TSlice any); GField "By" false (hcl "by,block") (TMap text any)].
Definition ex_faces_value : hval := record [
  (["Face"], HDyn inner (ex_inner "fc" 1)); (["Gone"], HDyn inner (HOpaque "zero"));
  (["All"], HSlice [HDyn inner (ex_inner "a" 2); HDyn inner (HOpaque "zero"); HPtr inner (ex_inner "b" 3)]);
  (["By"], HMap [("k", HDyn inner (ex_inner "k" 4))])].
Example C63_structs_in_interfaces :
  can_write ex_env ex_is_zero ex_to_cty ex_len0 (fun u => no_mhook u <> None) false ex_faces ex_faces_value /\
  exists t, ex_marshal ex_env ex_faces ex_faces_value = Ok t /\
    parse_config t = Ok [IBlock "face" ["fc"] [IAttr "r" (ENum 1)]; IBlock "all" ["a"] [IAttr "r" (ENum 2)];
      IBlock "all" ["b"] [IAttr "r" (ENum 3)]; IBlock "by" ["k"] [IAttr "r" (ENum 4)]].
Proof.
  split; [|eexists; split; [vm_compute; reflexivity|]; vm_compute; reflexivity].
  eapply can_struct; [reflexivity|repeat leaf| | | | |pointers|].
  - intros; auto.
  - none.
  - none.
  - each_in; split; reflexivity.
  - each_in; cbn [hget ex_faces_value record find fst snd path_eqb].
    + eapply can_block; [eapply holds_dyn; eexists; reflexivity|left; reflexivity| |apply ex_can_inner; plain_goal].
      intros (_ & ? & ? & F & Z). injection F as <- <-. discriminate.
    + apply can_hollow. split; [eexists; reflexivity|]. do 2 eexists. split; reflexivity.
    + eapply can_blocks; [apply th_self; discriminate|reflexivity|reflexivity|discriminate| | | | |].
      * intros _ x [<-|[<-|[<-|[]]]]; reflexivity.
      * intros (u & <- & F). exact F.
      * intros (et & [F|(k & F)]); discriminate.
      * intros x [<-|[<-|[<-|[]]]] _; do 3 eexists;
          first [eapply holds_dyn; eexists; reflexivity|eapply holds_iface; eexists; reflexivity].
      * intros x a u w [<-|[<-|[<-|[]]]] _ N H; inversion H; subst;
          try (match goal with F : is_struct _ any |- _ => destruct F; discriminate end);
          try (apply ex_can_inner; plain_goal); try discriminate.
        destruct N. split; [eexists; reflexivity|]. do 2 eexists. split; reflexivity.
    + eapply can_entries; [apply th_self; discriminate|reflexivity|apply ents_map|reflexivity|discriminate| |].
      * intros ls x [H|[]]. injection H as <- <-. split; [repeat constructor; plain_goal|]. split; [reflexivity|].
        do 3 eexists. eapply holds_dyn; eexists; reflexivity.
      * intros ls x a u w [H|[]] Hh. injection H as <- <-. inversion Hh; subst; [destruct H; discriminate|].
        apply ex_can_inner; plain_goal.
Qed.

(* Slices of slices, maps of slices, slices of maps, and a slice of interfaces that holds a slice
   of strings. *)
Definition ex_nested : gtype := TStruct [
  GField "Rows" false (hcl "rows") (TSlice (TSlice text)); GField "Sums" false (hcl "sums") (TMap text (TSlice int));
  GField "Tags" false (hcl "tags") (TSlice (TMap text text)); GField "Any" false (hcl "any") (TSlice any)].
Definition ex_nested_value : hval := record [
  (["Rows"], HSlice [HSlice [HText "a"; HText "b"]; HOpaque "zero"; HSlice [HText "c"]]);
  (["Sums"], HMap [("odd", HSlice [HNative (NInt 1); HNative (NInt 3)]); ("none", HOpaque "zero")]);
  (["Tags"], HSlice [HMap [("k", HText "v"); ("l", HText "")]]);
  (["Any"], HSlice [HNative (NInt 1); HDyn (TSlice text) (HSlice [HText "x"])])].
Example C63_typed_collections :
  can_write ex_env ex_is_zero ex_to_cty ex_len0 (fun u => no_mhook u <> None) false ex_nested ex_nested_value /\
  exists t, ex_marshal ex_env ex_nested ex_nested_value = Ok t /\
    parse_config t = Ok [
      IAttr "rows" (ETuple [ETuple [EStr "a"; EStr "b"]; ETuple []; ETuple [EStr "c"]]);
      IAttr "sums" (EObj [("odd", ETuple [ENum 1; ENum 3]); ("none", ECall "null")]);
      IAttr "tags" (ETuple [EObj [("k", EStr "v"); ("l", EStr "")]]);
      IAttr "any" (ETuple [ENum 1; ETuple [EStr "x"]])].
Proof.
  split; [|eexists; split; [vm_compute; reflexivity|]; vm_compute; reflexivity].
  assert (T : forall p s, quotable s -> s <> "" -> data ex_env ex_is_zero p text (HText s) (NStr s)).
  { intros p s Q N. apply da_text; [exact Q|]. intros _. destruct s; [congruence|reflexivity]. }
  assert (Z : forall p z, in_int32 z -> z <> 0%Z -> data ex_env ex_is_zero p int (HNative (NInt z)) (NInt z)).
  { intros p z I N. apply da_scalar; [cbn; auto|constructor; exact I|]. intros _. destruct z; [congruence|reflexivity..]. }
  eapply can_struct; [reflexivity|repeat leaf| | | | |pointers|].
  - intros; auto.
  - none.
  - none.
  - each_in; split; reflexivity.
  - each_in; cbn [hget ex_nested_value record find fst snd path_eqb].
    + eapply can_data; [apply th_self; discriminate|]. eapply df_slice; [reflexivity|left; eexists; left; reflexivity|discriminate|reflexivity|].
      eapply da_slice; [left; reflexivity|reflexivity|]. repeat apply el_cons; [| | |apply el_nil].
      * eapply da_slice; [left; reflexivity|reflexivity|]. repeat apply el_cons; [apply T; [plain_goal|discriminate]..|apply el_nil].
      * eapply da_nil_elem; reflexivity.
      * eapply da_slice; [left; reflexivity|reflexivity|]. repeat apply el_cons; [apply T; [plain_goal|discriminate]|apply el_nil].
    + eapply can_data; [apply th_self; discriminate|]. eapply df_map; [reflexivity|eexists; left; reflexivity|discriminate|reflexivity|].
      eapply da_map; [reflexivity|reflexivity|intros (ms & F); discriminate F|reflexivity|none|].
      repeat apply me_cons; [split; [split; reflexivity|discriminate]| |split; [split; reflexivity|discriminate]| |apply me_nil].
      * eapply da_slice; [left; reflexivity|reflexivity|].
        repeat apply el_cons; [apply Z; [unfold in_int32; lia|discriminate]..|apply el_nil].
      * apply da_nil; [discriminate|right; right; eexists; left; reflexivity|reflexivity].
    + eapply can_data; [apply th_self; discriminate|]. eapply df_slice; [reflexivity|left; eexists; right; eexists; reflexivity|discriminate|reflexivity|].
      eapply da_slice; [left; reflexivity|reflexivity|]. apply el_cons; [|apply el_nil].
      eapply da_map; [reflexivity|reflexivity|intros (ms & F); discriminate F|reflexivity|none|].
      repeat apply me_cons; [split; [split; reflexivity|discriminate]| |split; [split; reflexivity|discriminate]| |apply me_nil].
      * apply T; [plain_goal|discriminate].
      * apply da_text; [exact Logic.I|discriminate].
    + eapply can_data; [apply th_self; discriminate|]. eapply df_slice; [reflexivity|right; eexists; reflexivity|discriminate|reflexivity|].
      eapply da_slice; [left; reflexivity|reflexivity|]. repeat apply el_cons; [| |apply el_nil].
      * apply da_generic; [left; eexists; reflexivity|reflexivity|discriminate|].
        apply su_scalar; [constructor; unfold in_int32; lia|]. intros _ [F|[F|[F|F]]]; discriminate F.
      * eapply da_dyn; [eexists; reflexivity|intros (ms & F); discriminate F|reflexivity|reflexivity|].
        eapply da_slice; [left; reflexivity|reflexivity|]. apply el_cons; [apply T; [plain_goal|discriminate]|apply el_nil].
Qed.

(* ----- what is not written, or not as HCL that holds the value ----- *)

(* A struct with one field X. *)
Definition one_field_of (anon : bool) (tag : string) (t : gtype) : gtype := TStruct [GField "X" anon tag t].
Definition one (tag : string) (t : gtype) (v : hval) : result string :=
  ex_marshal ex_env (one_field_of false (hcl tag) t) (record [(["X"], v)]).

(* A pointer to a list of strings cannot be written. *)
Theorem C63_refuted : ~ C63_full.
Proof.
  intro H. specialize (H no_align _ _ _ _ _ no_mhook ex_library (one_field_of false (hcl "x") (TPtr (TSlice text)))
    (record [(["X"], HPtr (TSlice text) (HSlice [HText "a"]))])).
  destruct H as (d & H); [eexists; reflexivity|reflexivity|reflexivity|].
  destruct (H (S d) (S d)) as (t & its & H1 & _); [lia|lia|]. vm_compute in H1. discriminate H1.
Qed.
Print Assumptions C63_refuted.

(* Calls that panic: a pointer to a list of strings, an embedded pointer that is nil, a map
   with a nil pointer, a label whose kind is written with a capital. *)
Theorem C63_panics_refuted :
  (exists e, one "x,optional" (TPtr (TSlice text)) (HPtr (TSlice text) (HSlice [HText "a"])) = Panic e) /\
  (exists e, ex_marshal ex_env (one_field_of true "" (TPtr (TNamed 2))) (record []) = Panic e) /\
  (exists e, one "x,block" (TMap text (TPtr inner)) (HMap [("k", HOpaque "zero")]) = Panic e) /\
  (exists e, one "x,Label" text (HText "a") = Panic e).
Proof. repeat split; eexists; vm_compute; reflexivity. Qed.
Print Assumptions C63_panics_refuted.

(* Texts that do not parse: a number or list in a field of interface type, a map whose first key
   is "for", generic data with a key that is no identifier. *)
Definition no_hcl (r : result string) : Prop := exists t e, r = Ok t /\ parse_config t = Err e.
Theorem C63_not_hcl_refuted :
  no_hcl (one "x,optional" any (HNative (NInt 5))) /\
  no_hcl (one "x,optional" any (HNative (NList [NInt 5]))) /\
  no_hcl (one "x" (TMap text text) (HMap [("for", HText "a")])) /\
  no_hcl (one "x,block" (TMap text any) (HNative (NMap [("a", NList [NInt 1]); ("b c", NInt 1)]))).
Proof. repeat split; do 2 eexists; (split; [vm_compute; reflexivity|vm_compute; reflexivity]). Qed.
Print Assumptions C63_not_hcl_refuted.

(* A string, number or boolean of a type with a name, in an interface or in a slice of slices, makes
   encoding and shortDirect call each other until the stack is full; this ends the program, as
   such an overflow cannot be recovered from. *)
Definition color := TNamed 3.
Theorem C63_named_scalar_refuted : forall fuel,
  let m t v := marshal_value no_align ex_env 9 ex_is_zero ex_to_cty ex_fmt ex_len0 no_mhook (S fuel)
                 (one_field_of false (hcl "x") t) (record [(["X"], v)]) in
  m any (HDyn color (HText "red")) = Panic "stack overflow" /\
  m (TSlice (TSlice color)) (HSlice [HSlice [HText "red"]]) = Panic "stack overflow" /\
  (exists s, m (TSlice (TSlice text)) (HSlice [HSlice [HText "red"]]) = Ok s).
Proof. intros fuel m. split; [reflexivity|]. split; [reflexivity|]. eexists. reflexivity. Qed.
Print Assumptions C63_named_scalar_refuted.

(* A map of maps of generic data, and a map with an array of zeros, are not written as HCL; with
   elements of another type they are. *)
Theorem C63_nested_map_refuted :
  no_hcl (one "x" (TMap text (TMap text any)) (HMap [("k", HNative (NMap [("a", NInt 1)]))])) /\
  no_hcl (one "x" (TMap text (TMap text (TArray int))) (HMap [("k", HMap [("l", HOpaque "zero")])])) /\
  (exists t, one "x" (TMap text (TMap text int)) (HMap [("k", HMap [("a", HNative (NInt 1))])]) = Ok t /\
     parse_config t = Ok [IAttr "x" (EObj [("k", EObj [("a", ENum 1)])])]).
Proof.
  split; [do 2 eexists; split; [vm_compute; reflexivity|]; vm_compute; reflexivity|]. split; [do 2 eexists; split; [vm_compute; reflexivity|]; vm_compute; reflexivity|].
  eexists. split; [vm_compute; reflexivity|]. vm_compute; reflexivity.
Qed.
Print Assumptions C63_nested_map_refuted.

(* The text behind a pointer is written without quotes: it is read as a variable, here, or as
   whatever HCL it is. *)
Theorem C63_string_pointer_refuted : exists t t',
  one "x,optional" (TPtr text) (HPtr text (HText "hi")) = Ok t /\ parse_config t = Ok [IAttr "x" (EVar "hi")] /\
  one "x,optional" (TPtr text) (HPtr text (HText ("1" +++ nl +++ "y = 2"))) = Ok t' /\
  parse_config t' = Ok [IAttr "x" (ENum 1); IAttr "y" (ENum 2)].
Proof.
  do 2 eexists. split; [vm_compute; reflexivity|]. split; [vm_compute; reflexivity|]. split; [vm_compute; reflexivity|].
  vm_compute; reflexivity.
Qed.
Print Assumptions C63_string_pointer_refuted.

(* Labels are not escaped: one label makes two labels, or a block of another type. *)
Theorem C63_label_injection_refuted : exists t t',
  one "x,block" (TSlice inner) (HSlice [ex_inner ("a" +++ quote +++ " " +++ quote +++ "b") 1]) = Ok t /\
  parse_config t = Ok [IBlock "x" ["a"; "b"] [IAttr "r" (ENum 1)]] /\
  one "x,block" (TSlice inner) (HSlice [ex_inner ("a" +++ quote +++ " {" +++ nl +++ "}" +++ nl +++ "y " +++ quote +++ "b") 1]) = Ok t' /\
  parse_config t' = Ok [IBlock "x" ["a"] []; IBlock "y" ["b"] [IAttr "r" (ENum 1)]].
Proof.
  do 2 eexists. split; [vm_compute; reflexivity|]. split; [vm_compute; reflexivity|]. split; [vm_compute; reflexivity|].
  vm_compute; reflexivity.
Qed.
Print Assumptions C63_label_injection_refuted.

(* Different values with the same text: a zero struct in a slice, and the labels of the struct
   itself, are left out. *)
Theorem C63_left_out_refuted :
  (exists t, one "x,block" (TSlice inner) (HSlice [HOpaque "zero"; ex_inner "a" 1]) = Ok t /\
     one "x,block" (TSlice inner) (HSlice [ex_inner "a" 1]) = Ok t) /\
  (exists t, ex_marshal ex_env inner (ex_inner "a" 1) = Ok t /\ ex_marshal ex_env inner (ex_inner "b" 1) = Ok t).
Proof. split; (eexists; split; [vm_compute; reflexivity|]; vm_compute; reflexivity). Qed.
Print Assumptions C63_left_out_refuted.
