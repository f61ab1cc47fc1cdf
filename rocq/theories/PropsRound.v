(* C64: structs come back from their HCL text. *)

From Verif Require Import Base GoType DetModel CtyModel HclModel HclSpec HclParse HclGrammar TagModel StructModel StructSpec
  StructRef StructNames MarshalModel MarshalSpec MarshalProofs RoundSpec RoundProofs RoundFits.
From Verif Require PropsMarshal PropsStruct FitSpec FitProofs.
From Coq Require Import Lia.
Local Open Scope nat_scope.

(* ----- C64: reading what was written ----- *)

(* What is needed of the libraries: values that are there are not zero, the zero value of a
   string type is the empty text, an attribute that can be decoded at its type is decoded
   to the value that was converted, and reflect assigns a type to itself and an unnamed pointer
   type to a type it underlies. *)
Definition scalar_type (E : env) (t : gtype) : Prop := simple E t \/ exists et, has_elem E t et /\ simple E et.
Definition reading_ok (E : env) (zero : gtype -> hval) (assignable : gtype -> gtype -> bool) (is_zero : gtype -> hval -> bool)
    (to_cty : gtype -> hval -> result cval) (decode_attr : gtype -> cval -> result hval) : Prop :=
  (forall t l, l <> [] -> is_coll E t -> is_zero t (HNative (NList l)) = false) /\
  (forall t m, m <> [] -> is_coll E t -> is_zero t (HNative (NMap m)) = false) /\
  (forall t s, under E t = TBasic "string" -> is_zero t (HText s) = true <-> s = "") /\
  (forall t, under E t = TBasic "string" -> zero t = HText "") /\
  (forall t v c, scalar_type E t -> is_zero t v = false -> to_cty t v = Ok c -> c <> CNull) /\
  (forall t v c x, scalar_type E t -> to_cty t v = Ok c -> decode_attr t c = Ok x -> alike E is_zero zero t v x) /\
  (forall t u w c x, under E t = TPtr u -> simple E u -> to_cty u w = Ok c -> decode_attr t c = Ok x ->
     exists y, x = HPtr u y /\ alike E is_zero zero u w y) /\
  (forall t, assignable t t = true) /\
  (forall t u, under E t = TPtr u -> assignable (TPtr u) t = true).

(* C64 in full: the text of a struct, read with the labels of the struct into a fresh one, gives
   the struct back. *)
Definition C64_full : Prop := forall align E fdepth type_string zero assignable decode_attr hook is_zero to_cty fmt_v len0 mhook,
  PropsMarshal.library_ok E is_zero to_cty fmt_v len0 -> reading_ok E zero assignable is_zero to_cty decode_attr ->
  distinct_names E type_string -> (forall t, hook t = None) -> (forall t, mhook t = None) ->
  forall t v depth fuel text labels its,
  marshal_value align E depth is_zero to_cty fmt_v len0 mhook fuel t v = Ok text ->
  represents E is_zero to_cty len0 false t v [] labels its ->
  exists v' ref', unmarshal_spec E fdepth type_string zero assignable decode_attr hook None [] labels t (zero t) text = (v', ref', Ok tt) /\
    alike E is_zero zero t v v'.

(* It holds of the values that can be written and that returns describes.  x is the struct or,
   if addr, a pointer to it. *)
Theorem C64_comes_back_partial : forall align E fdepth type_string zero assignable decode_attr hook is_zero to_cty fmt_v len0 mhook,
  PropsMarshal.library_ok E is_zero to_cty fmt_v len0 -> reading_ok E zero assignable is_zero to_cty decode_attr ->
  distinct_names E type_string ->
  forall (addr : bool) t v pt x, can_write E is_zero to_cty len0 (fun u => mhook u <> None) addr t v ->
  (if addr then under E pt = TPtr t /\ exists u, x = HPtr u v else pt = t /\ x = v) -> is_zero pt x = false ->
  returns E fdepth is_zero zero to_cty len0 assignable decode_attr (fun u => hook u <> None) t [] v ->
  exists text labels its d, represents E is_zero to_cty len0 addr t v [] labels its /\ parse_config text = Ok its /\
    (forall depth fuel, d <= depth -> d <= fuel ->
       marshal_value align E depth is_zero to_cty fmt_v len0 mhook fuel pt x = Ok text) /\
    (forall ref, ref_ok E type_string zero ref -> exists v' ref',
       unmarshal_spec E fdepth type_string zero assignable decode_attr hook None ref labels t (zero t) text = (v', ref', Ok tt) /\
       alike E is_zero zero t v v').
Proof.
  intros align E fdepth ts zero asg da hook is_zero to_cty fmt_v len0 mhook L (R1 & R2 & R3 & R4 & R5 & R6 & R7 & R8 & R9) DN addr t v pt x C D Z R.
  destruct (PropsMarshal.C63_struct_written_partial align E is_zero to_cty fmt_v len0 mhook L addr t v pt x C D Z)
    as (text & labels & its & d & Rp & P & _ & Bv & M).
  exists text, labels, its, d. split; [exact Rp|]. split; [exact P|]. split; [exact M|].
  intros ref RO.
  pose proof (returns_fits E fdepth zero asg da _ is_zero to_cty len0 (proj1 L) R1 R2 R3 R5 R8 R9 t [] v R addr labels its Rp) as F.
  destruct (FitProofs.fits_accepted E fdepth ts zero asg da hook DN text None t its labels (zero t) ref eq_refl RO Bv P F) as (v' & ref' & H).
  exists v', ref'. split; [exact H|].
  destruct (returns_back E fdepth ts zero asg da hook is_zero to_cty len0 DN (proj1 L) R1 R2 R3 R4 R5 R6 R7 t [] v R) as [_ B].
  exact (B addr labels its text ref ref' (zero t) v' Rp P RO (fun p => eq_refl) H).
Qed.
Print Assumptions C64_comes_back_partial.

(* Wherever the text comes from: what represents the value is read as the value, if no comment
   stands before a value. *)
Theorem C64_any_text_partial : forall E fdepth type_string zero assignable decode_attr hook is_zero to_cty len0,
  (forall t u w, is_zero t (HPtr u w) = false) -> reading_ok E zero assignable is_zero to_cty decode_attr ->
  distinct_names E type_string ->
  forall addr t key v labels its text ref,
  returns E fdepth is_zero zero to_cty len0 assignable decode_attr (fun u => hook u <> None) t key v ->
  represents E is_zero to_cty len0 addr t v key labels its -> bare_values text -> parse_config text = Ok its -> ref_ok E type_string zero ref -> exists v' ref',
  unmarshal_spec E fdepth type_string zero assignable decode_attr hook None ref (key ++ labels)%list t (zero t) text = (v', ref', Ok tt) /\
  alike E is_zero zero t v v'.
Proof.
  intros E fdepth ts zero asg da hook is_zero to_cty len0 L (R1 & R2 & R3 & R4 & R5 & R6 & R7 & R8 & R9) DN addr t key v labels its text ref R Rp Bv P RO.
  pose proof (returns_fits E fdepth zero asg da _ is_zero to_cty len0 L R1 R2 R3 R5 R8 R9 t key v R addr labels its Rp) as F.
  destruct (FitProofs.fits_accepted E fdepth ts zero asg da hook DN text None t its (key ++ labels)%list (zero t) ref eq_refl RO Bv P F) as (v' & ref' & H).
  exists v', ref'. split; [exact H|].
  destruct (returns_back E fdepth ts zero asg da hook is_zero to_cty len0 DN L R1 R2 R3 R4 R5 R6 R7 t key v R) as [_ B].
  exact (B addr labels its text ref ref' (zero t) v' Rp P RO (fun p => eq_refl) H).
Qed.
Print Assumptions C64_any_text_partial.

(* ----- an example ----- *)

Definition hcl (s : string) : string := "hcl:" +++ quote +++ s +++ quote.
Definition text := TBasic "string".
Definition int := TBasic "int".
Definition inner := TNamed 1.
Definition plain := TNamed 3.
Definition any := TIface [].
Definition ex_env : env := [
  mkNamed "p" "Top" (TStruct [
    GField "Kind" false (hcl "kind,label") text;
    GField "Size" false (hcl "size,optional") int;
    GField "Title" false (hcl "title") text;
    GField "Tags" false (hcl "tags,optional") (TSlice text);
    GField "Opts" false (hcl "opts") (TMap text text);
    GField "Zero" false (hcl "zero,optional") int;
    GField "Count" false (hcl "count,optional") (TPtr int);
    GField "Items" false (hcl "items,optional") (TSlice any);
    GField "Extra" false (hcl "extra,block") (TMap text any);
    GField "Inner" false (hcl "inner,block") inner;
    GField "Ptr" false (hcl "ptr,block") (TPtr inner);
    GField "Many" false (hcl "many,block") (TSlice (TPtr inner));
    GField "By" false (hcl "by,block") (TMap text inner);
    GField "Pairs" false (hcl "pairs,block") (TMap (TArray text) (TPtr plain));
    GField "Base" true "" (TNamed 2);
    GField "hidden" false (hcl "hidden") text;
    GField "Skip" false (hcl "-") text]);
  mkNamed "p" "Inner" (TStruct [GField "Id" false (hcl "id,label") text; GField "R" false (hcl "r,optional") int]);
  mkNamed "p" "Base" (TStruct [GField "Note" false (hcl "note,optional") text]);
  mkNamed "p" "Plain" (TStruct [GField "R" false (hcl "r,optional") int])].

Definition record (l : list (list string * hval)) : hval :=
  HStruct (fun p => match find (fun kv => path_eqb (fst kv) p) l with Some kv => snd kv | None => HOpaque "zero" end).
Definition ex_inner (id : string) (r : Z) : hval := record [(["Id"], HText id); (["R"], HNative (NInt r))].
Definition ex_plain (r : Z) : hval := record [(["R"], HNative (NInt r))].
Definition ex_value : hval := record [
  (["Kind"], HText "top");
  (["Size"], HNative (NInt 5));
  (["Title"], HText ("a " +++ quote +++ "b" +++ quote));
  (["Tags"], HSlice [HText "x"; HText "y"]);
  (["Opts"], HMap [("k", HText "1"); ("l", HText "2")]);
  (["Zero"], HNative (NInt 0));
  (["Count"], HPtr int (HNative (NInt (-7))));
  (["Items"], HNative (NList [NInt 1; NStr "two"]));
  (["Extra"], HNative (NMap [("a", NInt 1); ("b", NMap [("c", NBool true)])]));
  (["Inner"], ex_inner "in" 1);
  (["Ptr"], HPtr inner (ex_inner "" 2));
  (["Many"], HSlice [HPtr inner (ex_inner "m0" 3); HPtr inner (ex_inner "m1" 0)]);
  (["By"], HMap [("one", ex_inner "one" 5); ("two", ex_inner "two" 6)]);
  (["Pairs"], HMap2 [(("a", "b"), HPtr plain (ex_plain 7)); (("b", "a"), HPtr plain (ex_plain 0))]);
  (["Base"; "Note"], HText "embedded");
  (["hidden"], HText "h");
  (["Skip"], HText "s")].

(* The library, for the example. *)
Definition ex_is_zero (t : gtype) (v : hval) : bool :=
  match v with
  | HOpaque "zero" => true
  | HPtr _ _ => false
  | _ => match under ex_env t, v with
         | TBasic _, HText "" => true
         | TBasic _, HNative (NInt 0) => true
         | _, _ => false
         end
  end.
Definition ex_basic (t : gtype) (v : hval) : result cval :=
  match under ex_env t, v with
  | TBasic "string", HText s => Ok (CStr s)
  | TBasic "int", HNative (NInt z) => Ok (CNum (mkD z 0))
  | _, _ => Err "unsuitable"
  end.
Definition ex_to_cty (t : gtype) (v : hval) : result cval :=
  match under ex_env t, v with
  | TSlice et, HSlice l => do cs <- mapr (ex_basic et) l; Ok (CTup cs)
  | TMap _ et, HMap m => do cs <- mapr (fun kv => do c <- ex_basic et (snd kv); Ok (fst kv, c)) m; Ok (CObj cs)
  | _, _ => ex_basic t v
  end.
Definition ex_unbasic (t : gtype) (c : cval) : result hval :=
  match under ex_env t, c with
  | TBasic "string", CStr s => Ok (HText s)
  | TBasic "int", CNum d => Ok (HNative (NInt (num d)))
  | _, _ => Err "unsuitable"
  end.
Definition ex_attr (t : gtype) (c : cval) : result hval :=
  match under ex_env t, c with
  | TPtr u, _ => do x <- ex_unbasic u c; Ok (HPtr u x)
  | TSlice et, CTup cs => do l <- mapr (ex_unbasic et) cs; Ok (HSlice l)
  | TMap _ et, CObj cs => do m <- mapr (fun kc => do x <- ex_unbasic et (snd kc); Ok (fst kc, x)) cs; Ok (HMap m)
  | _, _ => ex_unbasic t c
  end.
Definition ex_flat (t : gtype) : hval :=
  match t with
  | TBasic "string" => HText ""
  | TBasic "int" => HNative (NInt 0)
  | _ => HOpaque "zero"
  end.
Definition ex_zero_inner : hval := ex_inner "" 0.
Definition ex_zero_top : hval := record [
  (["Kind"], HText ""); (["Size"], HNative (NInt 0)); (["Title"], HText ""); (["Zero"], HNative (NInt 0));
  (["Inner"], ex_zero_inner); (["Base"; "Note"], HText ""); (["hidden"], HText ""); (["Skip"], HText "")].
Definition ex_zero (t : gtype) : hval :=
  match t with
  | TNamed 0 => ex_zero_top
  | TNamed 1 => ex_zero_inner
  | TNamed 2 => record [(["Note"], HText "")]
  | TNamed 3 => ex_plain 0
  | _ => ex_flat (under ex_env t)
  end.
Definition ex_fmt (t : gtype) (v : hval) : string := match v with HNative (NInt z) => dec_Z z | _ => "" end.
Definition ex_len0 (v : hval) : bool := match v with HOpaque "zero" => true | _ => false end.
Definition ex_assignable (xt ft : gtype) : bool :=
  match under ex_env ft with TIface _ => true | _ => String.eqb (enc xt) (enc ft) end.
Definition no_mhook (t : gtype) : option (hval -> result string) := None.
Definition no_hook (t : gtype) : option (string -> list string -> hval -> hval * result unit) := None.
Definition no_align (ks : list string) (k : string) : nat := 0.
Definition ex_marshal := marshal_value no_align ex_env 9 ex_is_zero ex_to_cty ex_fmt ex_len0 no_mhook 9.
Definition ex_unmarshal := unmarshal_spec ex_env 9 enc ex_zero ex_assignable ex_attr no_hook.


Lemma basic_back : forall t v c, ex_basic t v = Ok c -> ex_unbasic t c = Ok v.
Proof.
  intros t v c H. unfold ex_basic in H. unfold ex_unbasic.
  destruct (under ex_env t); try discriminate.
  repeat match type of H with context [match ?x with _ => _ end] => destruct x; try discriminate end; injection H as <-; reflexivity.
Qed.
Lemma mapr_back : forall (A B : Type) (f : A -> result B) (g : B -> result A) l l', (forall x y, f x = Ok y -> g y = Ok x) ->
  mapr f l = Ok l' -> mapr g l' = Ok l.
Proof.
  intros A B f g l. induction l as [|x l IH]; intros l' FG H; cbn [mapr] in H.
  - injection H as <-. reflexivity.
  - apply bindr_Ok in H. destruct H as (y & Hy & H). apply bindr_Ok in H. destruct H as (r & Hr & H). injection H as <-.
    cbn [mapr]. rewrite (FG _ _ Hy). cbn [bindr]. rewrite (IH _ FG Hr). reflexivity.
Qed.
Lemma attr_back : forall t v c, scalar_type ex_env t -> ex_to_cty t v = Ok c -> ex_attr t c = Ok v.
Proof.
  intros t v c S H. unfold ex_to_cty in H. unfold ex_attr.
  assert (B : ex_basic t v = Ok c -> ex_unbasic t c = Ok v) by apply basic_back.
  destruct (under ex_env t) as [n|u|et|et|kt et|fs|ms|b] eqn:U; try (exact (B H)).
  - exfalso. destruct S as [(u' & Eu & S)|(et & [F|(k & F)] & _)]; [subst u'; rewrite U in S; exact S|congruence|congruence].
  - destruct v; try (unfold ex_basic in H; rewrite U in H; discriminate).
    apply bindr_Ok in H. destruct H as (cs & H & X). injection X as <-.
    rewrite (mapr_back _ _ _ (ex_unbasic et) _ _ (basic_back et) H). reflexivity.
  - destruct v; try (unfold ex_basic in H; rewrite U in H; discriminate).
    apply bindr_Ok in H. destruct H as (cs & H & X). injection X as <-.
    rewrite (mapr_back _ _ _ (fun kc => do x <- ex_unbasic et (snd kc); Ok (fst kc, x)) _ _) with (2 := H); [reflexivity|].
    intros [k x] [k' y] Hx. cbn [fst snd] in *. apply bindr_Ok in Hx. destruct Hx as (z & Hz & Hx). injection Hx as <- <-.
    rewrite (basic_back _ _ _ Hz). reflexivity.
Qed.

Lemma ex_reading : reading_ok ex_env ex_zero ex_assignable ex_is_zero ex_to_cty ex_attr.
Proof.
  repeat split.
  - intros t l _ (et & [U|(k & U)]); unfold ex_is_zero; rewrite U; reflexivity.
  - intros t l _ (et & [U|(k & U)]); unfold ex_is_zero; rewrite U; reflexivity.
  - unfold ex_is_zero. rewrite H. destruct s; [reflexivity|discriminate].
  - intros ->. unfold ex_is_zero. rewrite H. reflexivity.
  - intros t U. unfold ex_zero. destruct t as [[|[|[|[|n]]]]| | | | | | |]; try (rewrite U; reflexivity); discriminate U.
  - intros t v c S Z H ->. unfold ex_to_cty, ex_basic in H.
    destruct (under ex_env t) eqn:U; repeat match type of H with context [match ?x with _ => _ end] => destruct x; try discriminate end;
      try discriminate H; apply bindr_Ok in H; destruct H as (cs & _ & H); discriminate.
  - intros t v c x S H A. rewrite (attr_back _ _ _ S H) in A. injection A as <-. apply al_same.
  - intros t u w c x U S H A. exists w. split; [|apply al_same]. unfold ex_attr in A. rewrite U in A.
    apply bindr_Ok in A. destruct A as (y & Hy & A). injection A as <-.
    assert (B : ex_basic u w = Ok c).
    { unfold ex_to_cty in H. destruct S as (b & Eb & S). rewrite Eb in H. destruct b; try contradiction; exact H. }
    apply basic_back in B. congruence.
  - intro t. unfold ex_assignable. rewrite String.eqb_refl. destruct (under ex_env t); reflexivity.
  - intros t u U. unfold ex_assignable. rewrite U. destruct t as [[|[|[|[|[|n]]]]]| | | | | | |]; try discriminate U.
    injection U as <-. apply String.eqb_refl.
Qed.

Lemma ex_library : PropsMarshal.library_ok ex_env ex_is_zero ex_to_cty ex_fmt ex_len0.
Proof.
  repeat split.
  - intros t v (et & He) Z. unfold ex_is_zero in Z.
    assert (U : match under ex_env t with TBasic _ => False | _ => True end).
    { destruct He as [H|(k & H)]; rewrite H; exact Logic.I. }
    destruct v; try (destruct (under ex_env t); [discriminate|discriminate|discriminate|discriminate|discriminate|discriminate|discriminate|contradiction]).
    cbn [no_elems]. unfold ex_len0.
    repeat match type of Z with context [match ?x with _ => _ end] => destruct x; try discriminate; try contradiction end.
    reflexivity.
  - intros u w k z U K H. unfold ex_to_cty, ex_basic in H. rewrite U in H.
    repeat match type of H with context [match ?x with _ => _ end] => destruct x; try discriminate end.
    injection H as ->. reflexivity.
  - intros u w b U H. unfold ex_to_cty, ex_basic in H. rewrite U in H.
    destruct w; try discriminate; cbn in H; discriminate.
Qed.

(* ----- the example comes back ----- *)

Ltac none := vm_compute; repeat constructor; cbn; intuition discriminate.
Ltac leaf := first
  [ apply lv_nil
  | apply lv_hidden; [reflexivity|]
  | eapply lv_dash; [reflexivity|]
  | eapply lv_embedded; [reflexivity|reflexivity|reflexivity|reflexivity| |]
  | eapply lv_field; [reflexivity|reflexivity|discriminate|discriminate|] ].
Ltac each_in := let H := fresh in cbn [In app]; intros ? ? H;
  repeat (destruct H as [H|H]; [injection H as <- <-|]); [..|destruct H].
Ltac not_block := let H := fresh in intros [(? & H)|(? & [H|(? & H)] & [(? & X)|(? & X)])]; try discriminate H; injection H; intros; subst; discriminate X.
Ltac not_generic := let H := fresh in intros (? & [H|(? & H)] & (? & X)); try discriminate H; injection H; intros; subst; discriminate X.
Ltac class_goal := first
  [ eapply class_label; [reflexivity|intros []|reflexivity]
  | eapply class_dash; [reflexivity|intros []|discriminate]
  | eapply class_generic; [reflexivity|intros []|discriminate|discriminate|intros []|discriminate
      |apply points_self; discriminate|eexists; split; [first [left; reflexivity|right; eexists; reflexivity]|eexists; reflexivity]]
  | eapply class_block; [reflexivity|intros []|discriminate|discriminate|intros []|discriminate
      |first [apply points_ptr; reflexivity|apply points_self; discriminate]
      |first [left; eexists; reflexivity
             |right; eexists; split; [first [left; reflexivity|right; eexists; reflexivity]
                                     |first [left; eexists; reflexivity|right; eexists; reflexivity]]]]
  | eapply class_attr; [reflexivity|intros []|discriminate|discriminate|intros []|discriminate
      |first [apply points_ptr; reflexivity|apply points_self; discriminate]|not_block|not_generic] ].
Ltac field_goal := first
  [ apply af_nil
  | apply af_hidden; [reflexivity|]
  | apply af_field; [reflexivity|class_goal|discriminate|]
  | eapply af_inlined; [reflexivity|eapply class_inlined; [reflexivity|intros []|discriminate|intros []|apply points_self; discriminate|eexists; reflexivity]
      |apply points_self; discriminate|reflexivity| |] ].
Ltac tags_differ := let I := fresh in let J := fresh in cbn [In app]; intros ? ? ? ? ? ? ? I J ? ? ? ?;
  repeat (destruct I as [I|I]; [injection I as <- <-|]); [..|destruct I];
  repeat (destruct J as [J|J]; [injection J as <- <-|]); try contradiction; try (split; reflexivity);
  repeat match goal with X : claimed _ = true |- _ => first [discriminate X|clear X] end;
  match goal with A : tag2 _ = _, B : tag2 _ = _ |- _ => vm_compute in A; vm_compute in B; congruence end.
Ltac no_inlined := let H := fresh in let C := fresh in constructor; intros ? ? ? H C ? ?; exfalso; cbn in H;
  decompose [or] H; clear H; try contradiction; subst; inversion C; subst; try discriminate.
Ltac is_scalar := left; eexists; split; [reflexivity|exact Logic.I].
Ltac is_texts := right; exists text; split; [first [left; reflexivity|right; eexists; reflexivity]|eexists; split; [reflexivity|exact Logic.I]].
Ltac decoded := let H := fresh in intros ? H; eexists; apply attr_back; [|exact H].
Notation ex_returns := (returns ex_env 9 ex_is_zero ex_zero ex_to_cty ex_len0 ex_assignable ex_attr (fun u => no_hook u <> None)).

Lemma inner_returns : forall key id r, labels_return key [HText id] -> ex_returns inner key (ex_inner id r).
Proof.
  intros key id r L. eapply ret; [reflexivity|auto|repeat leaf|repeat field_goal|reflexivity|none| | | | | |].
  - tags_differ.
  - no_inlined.
  - each_in; split; reflexivity.
  - each_in; do 2 eexists; (split; [reflexivity|]); split; try discriminate; intro X; first [reflexivity|discriminate X].
  - exact L.
  - each_in.
    + apply fr_label; reflexivity.
    + change (hget _ _) with (HNative (NInt r)). apply fr_attr; [right; right; reflexivity|is_scalar| | |decoded; is_scalar].
      * intro X; inversion X; intuition discriminate.
      * intros _. left. reflexivity.
Qed.
Lemma plain_returns : forall a b r, ex_returns plain [a; b] (ex_plain r).
Proof.
  intros a b r. eapply ret; [reflexivity|auto|repeat leaf|repeat field_goal|reflexivity|none| | | | | |].
  - tags_differ.
  - no_inlined.
  - each_in; split; reflexivity.
  - each_in; do 2 eexists; (split; [reflexivity|]); split; try discriminate; intro X; first [reflexivity|discriminate X].
  - reflexivity.
  - each_in. change (hget _ _) with (HNative (NInt r)). apply fr_attr; [right; right; reflexivity|is_scalar| | |decoded; is_scalar].
    + intro X; inversion X; intuition discriminate.
    + intros _. left. reflexivity.
Qed.

Ltac inner_in := intros; repeat match goal with H : _ \/ _ |- _ => destruct H | H : False |- _ => destruct H end; subst.
Lemma value_returns : ex_returns (TNamed 0) [] ex_value.
Proof.
  eapply ret; [reflexivity|auto|repeat leaf|repeat field_goal|reflexivity|none| | | | | |].
  - tags_differ.
  - constructor. intros f t gs I C P U. cbn in I. decompose [or] I; clear I; try contradiction; subst; inversion C; subst; try discriminate.
    inversion P; subst; [discriminate|]. injection U as <-. no_inlined.
  - each_in; split; reflexivity.
  - each_in; do 2 eexists; (split; [reflexivity|]); split; try discriminate; intro X; first [reflexivity|discriminate X].
  - left. repeat constructor. eexists. split; [reflexivity|discriminate].
  - each_in; cbn [hget ex_value record find fst snd path_eqb].
    + apply fr_label; reflexivity.
    + apply fr_attr; [right; right; reflexivity|is_scalar|intro X; inversion X; intuition discriminate|discriminate|decoded; is_scalar].
    + apply fr_attr; [left; reflexivity|is_scalar|intro X; inversion X|discriminate|decoded; is_scalar].
    + apply fr_attr; [right; right; reflexivity|is_texts|intro X; inversion X|discriminate|decoded; is_texts].
    + apply fr_attr; [left; reflexivity|is_texts|intro X; inversion X|discriminate|decoded; is_texts].
    + apply fr_zero; [discriminate|reflexivity|intros (fs & X); discriminate X|left; reflexivity].
    + eapply fr_number; [right; right; reflexivity|reflexivity|eexists; split; [reflexivity|exact Logic.I]|].
      intros c X. injection X as <-. eexists. reflexivity.
    + eapply fr_list; [discriminate|reflexivity|eexists; reflexivity|discriminate|reflexivity].
    + eapply fr_map; [discriminate|reflexivity|eexists; reflexivity|discriminate|reflexivity].
    + eapply fr_struct; [discriminate|apply si_self; eexists; reflexivity|apply inner_returns].
      left. repeat constructor. eexists. split; [reflexivity|discriminate].
    + eapply fr_struct; [discriminate|apply si_ptr; [reflexivity|eexists; reflexivity]|apply inner_returns].
      right. repeat constructor.
    + eapply fr_slice; [discriminate|reflexivity|discriminate| |].
      * intros x [<-|[<-|[]]]; (split; [reflexivity|]); do 2 eexists; (apply si_ptr; [reflexivity|eexists; reflexivity]).
      * intros x u w [<-|[<-|[]]] X; inversion X; subst; try (match goal with F : is_struct _ _ |- _ => destruct F; discriminate end);
        apply inner_returns; left; repeat constructor; (eexists; split; [reflexivity|discriminate]).
    + eapply fr_entries; [discriminate|reflexivity|reflexivity|reflexivity|discriminate|none| |].
      * intros k x [X|[X|[]]]; injection X as <- <-; do 2 eexists; (apply si_self; eexists; reflexivity).
      * intros k x u w [X|[X|[]]] S; injection X as <- <-; inversion S; subst; apply inner_returns; right; eexists; (split; [reflexivity|constructor]).
    + eapply fr_pairs; [discriminate|reflexivity|eexists; reflexivity|reflexivity|discriminate|none| |].
      * intros a b x [X|[X|[]]]; injection X as <- <- <-; (split; [discriminate|]); (split; [discriminate|]); do 2 eexists;
        (apply si_ptr; [reflexivity|eexists; reflexivity]).
      * intros a b x u w [X|[X|[]]] S; injection X as <- <- <-; inversion S; subst;
        try (match goal with F : is_struct _ _ |- _ => destruct F; discriminate end); apply plain_returns.
    + apply fr_attr; [right; right; reflexivity|is_scalar|intro X; inversion X|discriminate|decoded; is_scalar].
Qed.

Notation ex_can := (can_write ex_env ex_is_zero ex_to_cty ex_len0 (fun u => no_mhook u <> None)).
Ltac plain_goal := cbn; repeat split; try discriminate; try exact Logic.I; unfold text_char; auto.
Lemma ex_can_inner : forall addr id r, quotable id -> ex_can addr inner (ex_inner id r).
Proof.
  intros addr id r Q. eapply can_struct; [reflexivity|repeat leaf| | | | |PropsMarshal.pointers|].
  - destruct addr; intros; auto.
  - none.
  - none.
  - each_in; split; reflexivity.
  - each_in.
    + change (hget _ _) with (HText id). destruct (string_dec id "") as [->|N]; [apply can_absent; split; [reflexivity|intros (fs & F); discriminate]|].
      eapply can_label; [reflexivity|reflexivity| |exact Q]. destruct id; [congruence|reflexivity].
    + change (hget _ _) with (HNative (NInt r)). destruct r; [apply can_absent; split; [reflexivity|intros (fs & F); discriminate]|..];
      (eapply can_attr; [right; right; reflexivity|reflexivity|is_scalar|reflexivity|constructor]).
Qed.
Lemma ex_can_plain : forall addr r, ex_can addr plain (ex_plain r).
Proof.
  intros addr r. eapply can_struct; [reflexivity|repeat leaf| | | | |PropsMarshal.pointers|].
  - destruct addr; intros; auto.
  - none.
  - none.
  - each_in; split; reflexivity.
  - each_in. change (hget _ _) with (HNative (NInt r)). destruct r; [apply can_absent; split; [reflexivity|intros (fs & F); discriminate]|..];
    (eapply can_attr; [right; right; reflexivity|reflexivity|is_scalar|reflexivity|constructor]).
Qed.
Ltac body_ok := constructor; [none|each_in].
Lemma value_written : ex_can true (TNamed 0) ex_value.
Proof.
  eapply can_struct; [reflexivity|repeat leaf| | | | |PropsMarshal.pointers|].
  - intros; auto.
  - none.
  - none.
  - each_in; split; reflexivity.
  - each_in; cbn [hget ex_value record find fst snd path_eqb].
    + eapply can_label; [reflexivity|reflexivity|reflexivity|plain_goal].
    + eapply can_attr; [right; right; reflexivity|reflexivity|is_scalar|reflexivity|constructor].
    + eapply can_attr; [left; reflexivity|reflexivity|is_scalar|reflexivity|constructor; plain_goal].
    + eapply can_attr; [right; right; reflexivity|reflexivity| |reflexivity|].
      * right. exists text. split; [left; reflexivity|]. split; [eexists; split; [reflexivity|exact Logic.I]|]. intro H; inversion H.
      * constructor. intros c [<-|[<-|[]]]; constructor; plain_goal.
    + eapply can_attr; [left; reflexivity|reflexivity| |reflexivity|].
      * right. exists text. split; [right; eexists; reflexivity|]. split; [eexists; split; [reflexivity|exact Logic.I]|]. intro H; inversion H.
      * constructor; [none|]. each_in; (split; [|constructor; plain_goal]).
        all: repeat split; reflexivity || discriminate.
    + apply can_absent. split; [reflexivity|]. intros (fs & F). discriminate.
    + eapply can_number; [reflexivity|auto|]. eapply number_int; [reflexivity|left; reflexivity|reflexivity].
    + eapply can_list; [apply th_self; discriminate|reflexivity|eexists; reflexivity|reflexivity|discriminate|].
      apply su_list. intros v [<-|[<-|[]]]; (apply su_scalar; [constructor|intros _ [F|[F|[F|F]]]; discriminate F]).
      * split; [discriminate|reflexivity].
      * plain_goal.
    + eapply can_map; [apply th_self; discriminate|reflexivity|eexists; reflexivity|reflexivity|discriminate|].
      body_ok; (split; [split; [split; reflexivity|discriminate]|]).
      * apply su_scalar; [constructor; split; [discriminate|reflexivity]|discriminate].
      * apply su_block; [body_ok; (split; [split; [split; reflexivity|discriminate]|]); apply su_scalar; [constructor|discriminate]|].
        right. exists "c", (NBool true). split; [left; reflexivity|]. intro m. split; discriminate.
    + eapply can_block; [apply holds_struct; eexists; reflexivity|left; reflexivity|PropsMarshal.not_hollow|apply ex_can_inner; plain_goal].
    + eapply can_block; [eapply holds_ptr; [reflexivity|eexists; reflexivity]|left; reflexivity|PropsMarshal.not_hollow|apply ex_can_inner; plain_goal].
    + eapply can_blocks; [apply th_self; discriminate|reflexivity|reflexivity|discriminate| | | | |].
      * intros (ms & F). discriminate.
      * intros (u & <- & F). exact F.
      * intros (et & [F|(k & F)]); discriminate.
      * intros x [<-|[<-|[]]] _; do 3 eexists; (eapply holds_ptr; [reflexivity|eexists; reflexivity]).
      * intros x a u w [<-|[<-|[]]] _ _ H; inversion H; subst; try (destruct H0; discriminate); apply ex_can_inner; plain_goal.
    + eapply can_entries; [apply th_self; discriminate|reflexivity|apply ents_map|reflexivity|discriminate| |].
      * intros ls x [H|[H|[]]]; injection H as <- <-; (split; [repeat constructor; plain_goal|]);
        (split; [intros (ms & F); discriminate|]); do 3 eexists; (apply holds_struct; eexists; reflexivity).
      * intros ls x a u w [H|[H|[]]] Hh; injection H as <- <-; inversion Hh; subst; apply ex_can_inner; plain_goal.
    + eapply can_entries; [apply th_self; discriminate|reflexivity|apply ents_map2|reflexivity|discriminate| |].
      * intros ls x [H|[H|[]]]; injection H as <- <-; (split; [repeat constructor; plain_goal|]);
        (split; [intros (ms & F); discriminate|]); do 3 eexists; (eapply holds_ptr; [reflexivity|eexists; reflexivity]).
      * intros ls x a u w [H|[H|[]]] Hh; injection H as <- <-; inversion Hh; subst;
        try (match goal with F : is_struct _ _ |- _ => destruct F; discriminate end);
        try (match goal with F : is_interface _ _ |- _ => destruct F; discriminate end); apply ex_can_plain.
    + eapply can_attr; [right; right; reflexivity|reflexivity|is_scalar|reflexivity|constructor; plain_goal].
Qed.

(* The example meets the hypotheses; its text is read, and holds what it should. *)
Definition ex_text : string := match ex_marshal (TPtr (TNamed 0)) (HPtr (TNamed 0) ex_value) with Ok s => s | _ => "" end.
Definition ex_run := ex_unmarshal None [] ["top"] (TNamed 0) (ex_zero (TNamed 0)) ex_text.
Definition ex_out := fst (fst ex_run).
Definition ex_pairs : list ((string * string) * option hval) :=
  match hget ex_out ["Pairs"] with
  | HMap2 m => map (fun kx => (fst kx, match snd kx with HPtr _ x => Some (hget x ["R"]) | _ => None end)) m
  | _ => []
  end.
Example C64_nonvacuous :
  PropsMarshal.library_ok ex_env ex_is_zero ex_to_cty ex_fmt ex_len0 /\
  reading_ok ex_env ex_zero ex_assignable ex_is_zero ex_to_cty ex_attr /\ distinct_names ex_env enc /\
  ex_can true (TNamed 0) ex_value /\ ex_returns (TNamed 0) [] ex_value /\
  ex_marshal (TPtr (TNamed 0)) (HPtr (TNamed 0) ex_value) = Ok ex_text /\ snd ex_run = Ok tt /\
  map (hget ex_out) [["Kind"]; ["Size"]; ["Opts"]; ["Zero"]; ["Count"]; ["Extra"]; ["hidden"]; ["Base"; "Note"]]
  = [HText "top"; HNative (NInt 5); HMap [("k", HText "1"); ("l", HText "2")]; HNative (NInt 0);
     HPtr int (HNative (NInt (-7))); HNative (NMap [("a", NInt 1); ("b", NMap [("c", NBool true)])]);
     HText ""; HText "embedded"] /\
  ex_pairs = [(("a", "b"), Some (HNative (NInt 7))); (("b", "a"), Some (HNative (NInt 0)))].
Proof.
  split; [exact ex_library|]. split; [exact ex_reading|]. split; [apply enc_distinct|].
  split; [exact value_written|]. split; [exact value_returns|].
  split; [vm_compute; reflexivity|]. repeat split; vm_compute; reflexivity.
Qed.

(* Structs that differ in a field that is written are not alike. *)
Example alike_differs : ~ alike ex_env ex_is_zero ex_zero inner (ex_inner "a" 1) (ex_inner "a" 2).
Proof.
  intro H. remember inner as t. remember (ex_inner "a" 1) as v. remember (ex_inner "a" 2) as w.
  destruct H as [t v|t v Z|t n n' X|t v w fs l U Lv A|t u v w U X|t et l l' U X|t kt et m m' U X Y|t kt et m m' U X Y]; subst; try discriminate.
  - apply (f_equal (fun v => hget v ["R"])) in Heqw. discriminate Heqw.
  - injection U as <-.
    assert (I : In (GField "R" false (hcl "r,optional") int, ["R"]) l).
    { repeat (match goal with L : leaves _ _ (_ :: _) _ |- _ => inversion L; subst; clear L; try discriminate end); cbn; tauto. }
    specialize (A _ _ I). cbn in A. inversion A as [| |? ? ? X| | | | |]; subst; try discriminate. inversion X.
Qed.

(* ----- what does not come back ----- *)

(* A struct with one field X, written and read again. *)
Definition holder (tag : string) (t : gtype) : gtype := TStruct [GField "X" false tag t].
Definition trip (tag : string) (t : gtype) (v : hval) : result (result unit * hval) :=
  do s <- ex_marshal (holder tag t) (record [(["X"], v)]);
  let r := ex_unmarshal None [] [] (holder tag t) (record [(["X"], ex_zero t)]) s in
  Ok (snd r, hget (fst (fst r)) ["X"]).
Definition rejected (r : result (result unit * hval)) : Prop :=
  exists x, match r with Ok (Err _, y) => x = y | Ok (Panic _, y) => x = y | _ => False end.

(* An attribute that is required and zero is left out. *)
Theorem C64_refuted : ~ C64_full.
Proof.
  intro H. specialize (H no_align ex_env 9 enc ex_zero ex_assignable ex_attr no_hook ex_is_zero ex_to_cty ex_fmt ex_len0 no_mhook
    ex_library ex_reading (enc_distinct _) (fun _ => eq_refl) (fun _ => eq_refl) (holder (hcl "x") int) (record [(["X"], HNative (NInt 0))]) 9 9 "" [] []).
  destruct H as (v' & ref' & H & _).
  - vm_compute. reflexivity.
  - refine (rep _ _ _ _ false _ _ [] _ _ [nothing] _ _ _); [reflexivity|repeat leaf|]. constructor; [|constructor]. apply fp_absent. split; [reflexivity|].
    intros (fs & X). discriminate X.
  - vm_compute in H. discriminate H.
Qed.
Print Assumptions C64_refuted.

(* Texts that Unmarshal refuses, or panics on: a required attribute that is zero, an empty map of
   texts, an empty map of structs, an empty map of generic data, a pointer to a map of generic
   data, a field without a tag, and a pair-keyed map of structs that have a label of their own. *)
Theorem C64_rejected_refuted :
  rejected (trip (hcl "x") int (HNative (NInt 0))) /\
  rejected (trip (hcl "x,optional") (TMap text text) (HMap [])) /\
  rejected (trip (hcl "x,block") (TMap text inner) (HMap [])) /\
  rejected (trip (hcl "x,optional") (TMap text any) (HNative (NMap []))) /\
  rejected (trip (hcl "x,optional") (TPtr (TMap text any)) (HPtr (TMap text any) (HNative (NMap [("a", NInt 1)])))) /\
  rejected (trip "" text (HText "a")) /\
  rejected (trip (hcl "x,block") (TMap (TArray text) inner) (HMap2 [(("a", "b"), ex_inner "c" 1)])).
Proof. repeat split; eexists; vm_compute; reflexivity. Qed.
Print Assumptions C64_rejected_refuted.

(* Values that come back changed, without an error: a label below a map key is lost, or the key
   put in its place; a zero struct in a slice disappears; an empty slice of structs is nil. *)
Definition label_at (r : result (result unit * hval)) : option (list hval) :=
  match r with
  | Ok (Ok _, HMap m) => Some (map (fun kv => hget (snd kv) ["Id"]) m)
  | Ok (Ok _, HSlice l) => Some (map (fun x => hget x ["Id"]) l)
  | _ => None
  end.
Theorem C64_changed_refuted :
  label_at (trip (hcl "x,block") (TMap text inner) (HMap [("k", ex_inner "l" 1)])) = Some [HText ""] /\
  label_at (trip (hcl "x,block") (TMap text inner) (HMap [("k", ex_inner "" 1)])) = Some [HText "k"] /\
  label_at (trip (hcl "x,block") (TSlice inner) (HSlice [ex_inner "a" 1; HOpaque "zero"; ex_inner "b" 2]))
    = Some [HText "a"; HText "b"] /\
  trip (hcl "x,block") (TSlice inner) (HSlice []) = Ok (Ok tt, ex_zero (TSlice inner)).
Proof. repeat split; vm_compute; reflexivity. Qed.
Print Assumptions C64_changed_refuted.
