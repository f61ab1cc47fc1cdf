(* What decoding HCL into a struct should do, stated without the decoder's traversals. *)

From Verif Require Import Base GoType SpecModel CollectModel DetModel CtyModel HclModel TagModel.

(* ----- the classes of fields (C30) ----- *)

(* A label, an attribute, a block with a spec, generic data, excluded, or a struct whose
   fields stand in its place. *)
Inductive cls := Label | Attr | Block | Generic | Excluded | Inlined.

(* The type of a field, through one pointer. *)
Inductive points (E : env) : gtype -> gtype -> Prop :=
| points_ptr t u : under E t = TPtr u -> points E t u
| points_self t : (forall u, under E t <> TPtr u) -> points E t t.

(* Types by what their elements are. *)
Definition is_struct (E : env) (t : gtype) : Prop := exists fs, under E t = TStruct fs.
Definition is_pointer (E : env) (t : gtype) : Prop := exists u, under E t = TPtr u.
Definition is_interface (E : env) (t : gtype) : Prop := exists ms, under E t = TIface ms.
Definition has_elem (E : env) (t et : gtype) : Prop :=
  under E t = TSlice et \/ exists kt, under E t = TMap kt et.

Definition block_type (E : env) (t : gtype) : Prop :=
  is_struct E t \/ exists et, has_elem E t et /\ (is_struct E et \/ is_pointer E et).
Definition generic_type (E : env) (t : gtype) : Prop := exists et, has_elem E t et /\ is_interface E et.

Definition is_label (kind : string) : Prop := to_lower kind = "label".

(* The class of an exported field, by its tag (C29), its type and the names in the spec. *)
Inductive class_of (E : env) (nulls specs : list string) (f : gfield) : cls -> Prop :=
| class_null tag kind : tag2 (ftag f) = Ok (tag, kind) -> In tag nulls -> class_of E nulls specs f Excluded
| class_label tag kind : tag2 (ftag f) = Ok (tag, kind) -> ~ In tag nulls -> is_label kind ->
    class_of E nulls specs f Label
| class_dash kind : tag2 (ftag f) = Ok ("-", kind) -> ~ In "-" nulls -> ~ is_label kind ->
    class_of E nulls specs f Excluded
| class_spec tag kind : tag2 (ftag f) = Ok (tag, kind) -> ~ In tag nulls -> ~ is_label kind -> tag <> "-" ->
    In (fname f) specs -> class_of E nulls specs f Block
| class_block tag kind t : tag2 (ftag f) = Ok (tag, kind) -> ~ In tag nulls -> ~ is_label kind -> tag <> "-" ->
    ~ In (fname f) specs -> tag <> "" -> points E (ftype f) t -> block_type E t -> class_of E nulls specs f Block
| class_generic tag kind t : tag2 (ftag f) = Ok (tag, kind) -> ~ In tag nulls -> ~ is_label kind -> tag <> "-" ->
    ~ In (fname f) specs -> tag <> "" -> points E (ftype f) t -> generic_type E t -> class_of E nulls specs f Generic
| class_attr tag kind t : tag2 (ftag f) = Ok (tag, kind) -> ~ In tag nulls -> ~ is_label kind -> tag <> "-" ->
    ~ In (fname f) specs -> tag <> "" -> points E (ftype f) t -> ~ block_type E t -> ~ generic_type E t ->
    class_of E nulls specs f Attr
| class_inlined kind t : tag2 (ftag f) = Ok ("", kind) -> ~ In "" nulls -> ~ is_label kind ->
    ~ In (fname f) specs -> points E (ftype f) t -> is_struct E t -> class_of E nulls specs f Inlined
| class_untagged kind t : tag2 (ftag f) = Ok ("", kind) -> ~ In "" nulls -> ~ is_label kind ->
    ~ In (fname f) specs -> points E (ftype f) t -> ~ is_struct E t -> class_of E nulls specs f Excluded.

(* All exported fields of a struct with their classes; after an inlined struct come its own
   fields. *)
Inductive all_fields (E : env) (nulls specs : list string) : list gfield -> list (gfield * cls) -> Prop :=
| af_nil : all_fields E nulls specs [] []
| af_hidden f fs l : is_exported (fname f) = false -> all_fields E nulls specs fs l ->
    all_fields E nulls specs (f :: fs) l
| af_field f c fs l : is_exported (fname f) = true -> class_of E nulls specs f c -> c <> Inlined ->
    all_fields E nulls specs fs l -> all_fields E nulls specs (f :: fs) ((f, c) :: l)
| af_inlined f t gs fs l l' : is_exported (fname f) = true -> class_of E nulls specs f Inlined ->
    points E (ftype f) t -> under E t = TStruct gs -> all_fields E nulls specs gs l ->
    all_fields E nulls specs fs l' ->
    all_fields E nulls specs (f :: fs) ((f, Inlined) :: l ++ l').

Definition cls_eq_dec : forall a b : cls, {a = b} + {a <> b}.
Proof. decide equality. Defined.
Definition of_class (c : cls) (l : list (gfield * cls)) : list gfield :=
  map fst (filter (fun fc => if cls_eq_dec (snd fc) c then true else false) l).

(* The classes of fields that the text may set. *)
Definition claimed (c : cls) : bool := match c with Excluded | Inlined => false | _ => true end.

(* A field of the struct or of a struct it leads to. *)
Inductive within (E : env) : gfield -> list gfield -> Prop :=
| within_here f fs : In f fs -> within E f fs
| within_deep f g t gs fs : In g fs -> points E (ftype g) t -> under E t = TStruct gs -> within E f gs ->
    within E f fs.

(* ----- classes and references (C31, C32) ----- *)

(* The structs in one value of a spec, and the class names in a spec, nested ones included. *)
Inductive value_struct : svalue -> sstruct -> Prop :=
| vs_single s : value_struct (VSingle s) s
| vs_list l s : In s l -> value_struct (VList l) s
| vs_map m k s : In (k, s) m -> value_struct (VMap m) s
| vs_map2 m k1 k2 ms s : In (k1, ms) m -> In (k2, s) ms -> value_struct (VMap2 m) s.
Inductive spec_class : sstruct -> string -> Prop :=
| sc_here c m : spec_class (SStruct c m) c
| sc_deep c m name v s x : In (name, v) m -> value_struct v s -> spec_class s x ->
    spec_class (SStruct c (Some m)) x.
Definition fields_class (m : list (string * svalue)) (c : string) : Prop :=
  exists name v s, In (name, v) m /\ value_struct v s /\ spec_class s c.

Section Names.
Variable E : env.
Variable type_string : gtype -> string.
(* The type that a type string names: a struct by its own name, any type by the name of a
   pointer to it. *)
Definition names_type (s : string) (u : gtype) : Prop :=
  (is_struct E u /\ s = type_string u) \/ exists pt, under E pt = TPtr u /\ s = type_string pt.
(* A name given by the user, not by a Go type. *)
Definition user_class (s : string) : Prop := forall u, ~ names_type s u.
(* Different types have different names: no two packages share a name and a type name. *)
Definition distinct_names : Prop := forall s u u', names_type s u -> names_type s u' -> u = u'.
End Names.

(* ----- attributes ----- *)

(* Later entries of an object replace earlier ones. *)
Definition overlay (u : list (string * cval)) : list (string * cval) :=
  fold_left (fun h kv => insert (fst kv) (snd kv) h) u [].
(* The value of an expression without variables; null() is null. *)
Inductive means : expr -> cval -> Prop :=
| means_num z : means (ENum z) (CNum (mkD z 0))
| means_dec m k : means (EDec m k) (CNum (decimal m k))
| means_str s : means (EStr s) (CStr s)
| means_bool b : means (EBool b) (CBool b)
| means_null : means ENull CNull
| means_null_call : means (ECall "null") CNull
| means_tuple l u : Forall2 means l u -> means (ETuple l) (CTup u)
| means_obj m u : Forall2 (fun ke kv => fst ke = fst kv /\ means (snd ke) (snd kv)) m u ->
    means (EObj m) (CObj (overlay u)).

(* The names of the attributes that are null. *)
Definition null_in (body : list item) (k : string) : Prop := exists e, In (IAttr k e) body /\ means e CNull.

(* No two fields of a struct claim the same name in the text. *)
Definition distinct_tags (l : list (gfield * cls)) : Prop :=
  forall f c g d tag k k', In (f, c) l -> In (g, d) l -> claimed c = true -> claimed d = true ->
  tag2 (ftag f) = Ok (tag, k) -> tag2 (ftag g) = Ok (tag, k') -> f = g /\ c = d.
