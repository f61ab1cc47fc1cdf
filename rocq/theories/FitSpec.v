(* The texts that a struct type accepts, stated without the decoder's traversals. *)

From Verif Require Import Base GoType DetModel CtyModel HclModel HclSpec HclGrammar TagModel StructModel StructSpec MarshalSpec.

Section Fit.
Variable E : env.
Variable depth : nat.                             (* call depth of FieldByName and loopFields *)
Variable assignable : gtype -> gtype -> bool.     (* reflect's AssignableTo *)
Variable decode_attr : gtype -> cval -> result hval.
Variable own_method : gtype -> Prop.              (* the type has a method UnmarshalHCL *)

(* Structs whose fields stand in place of a field are nested at most n deep. *)
Inductive nests (nulls : list string) : nat -> list gfield -> Prop :=
| nests_in n fs : (forall f t gs, In f fs -> class_of E nulls [] f Inlined -> points E (ftype f) t ->
    under E t = TStruct gs -> nests nulls n gs) -> nests nulls (S n) fs.

(* The elements of a slice or a map: the struct type u, held by value or by pointer, as xt. *)
Inductive held : gtype -> gtype -> gtype -> Prop :=
| held_value et : is_struct E et -> held et et et
| held_pointer et u : under E et = TPtr u -> is_struct E u -> held et u (TPtr u).
(* How a field of type ft holds the struct type u. *)
Inductive holds (ft u : gtype) : gtype -> Prop :=
| holds_pointer : is_pointer E ft \/ is_interface E ft -> holds ft u (TPtr u)
| holds_value : ~ is_pointer E ft -> ~ is_interface E ft -> holds ft u u.

Definition is_list (t : gtype) : Prop := exists et, under E t = TSlice et.
Definition is_pair (t : gtype) : Prop := exists et, under E t = TArray et.

Definition no_attr (its : list item) (k : string) : Prop := forall e, ~ In (IAttr k e) its.
Definition no_block (its : list item) (k : string) : Prop := forall ls b, ~ In (IBlock k ls b) its.
(* The first block with the name. *)
Definition first_named (its : list item) (k : string) (b : list item) : Prop :=
  exists pre ls post, its = (pre ++ IBlock k ls b :: post)%list /\ no_block pre k.

(* The items of a body fit a struct type: its fields are classified, every attribute that is not
   null and every block belongs to a field, and each field of the text can be found and fits. *)
Inductive fits : gtype -> list item -> Prop :=
| fits_struct t fs nulls cl its : under E t = TStruct fs ->
    (forall k, In k nulls <-> null_in its k) ->
    all_fields E nulls [] fs cl -> NoDup (map (fun fc => fname (fst fc)) cl) -> distinct_tags cl ->
    nests nulls depth fs ->
    (forall k e, In (IAttr k e) its -> exists x, means e x) ->
    (forall k e, In (IAttr k e) its -> ~ In k nulls ->
       exists f c kind, In (f, c) cl /\ tag2 (ftag f) = Ok (k, kind) /\ (c = Label \/ c = Attr \/ c = Generic)) ->
    (forall k ls b, In (IBlock k ls b) its ->
       exists f c kind, In (f, c) cl /\ tag2 (ftag f) = Ok (k, kind) /\ (c = Block \/ c = Generic)) ->
    (forall f c tag kind, In (f, c) cl -> claimed c = true -> tag2 (ftag f) = Ok (tag, kind) ->
       exists p ft, find_field E depth t (fname f) = Some (p, ft) /\ field_fits f ft tag kind its c) ->
    fits t its
with field_fits : gfield -> gtype -> string -> string -> list item -> cls -> Prop :=
(* labels are strings *)
| ff_label f ft tag kind its : assignable string_type ft = true ->
    (forall e, In (IAttr tag e) its -> exists s, e = EStr s) -> field_fits f ft tag kind its Label
(* attributes convert to the field's type, and are there unless they are optional *)
| ff_attr f ft tag kind its e x y : attr_kind kind -> In (IAttr tag e) its -> means e x ->
    decode_attr (ftype f) x = Ok y -> assignable (ftype f) ft = true -> field_fits f ft tag kind its Attr
| ff_optional f ft tag its : no_attr its tag -> field_fits f ft tag "optional" its Attr
(* generic data *)
| ff_list f ft tag kind its l : is_list (ftype f) -> In (IAttr tag (ETuple l)) its -> good_expr (ETuple l) ->
    assignable (TSlice any) ft = true -> field_fits f ft tag kind its Generic
| ff_object f ft tag kind its m : ~ is_list (ftype f) -> In (IAttr tag (EObj m)) its -> good_expr (EObj m) ->
    assignable (TMap string_type any) ft = true -> field_fits f ft tag kind its Generic
| ff_body f ft tag kind its b : ~ is_list (ftype f) -> no_attr its tag -> first_named its tag b ->
    b <> [] -> (forall i, In i b -> good_item i) ->
    assignable (TMap string_type any) ft = true -> field_fits f ft tag kind its Generic
| ff_no_data f ft tag kind its : no_attr its tag -> no_block its tag -> field_fits f ft tag kind its Generic
(* blocks: the first one for a struct or a pointer to one, all for slices and maps *)
| ff_no_block f ft tag kind its : no_block its tag -> field_fits f ft tag kind its Block
| ff_single f ft tag kind its u xt b : points E (ftype f) u -> is_struct E u -> ~ own_method u -> holds ft u xt ->
    assignable xt ft = true -> first_named its tag b -> fits u b -> field_fits f ft tag kind its Block
| ff_slice f ft tag kind its et u xt : under E (ftype f) = TSlice et -> held et u xt -> ~ own_method u ->
    assignable xt et = true -> assignable (ftype f) ft = true ->
    (forall ls b, In (IBlock tag ls b) its -> fits u b) -> field_fits f ft tag kind its Block
| ff_map f ft tag kind its kt et u xt : under E (ftype f) = TMap kt et -> ~ is_pair kt -> held et u xt ->
    ~ own_method u -> assignable string_type kt = true -> assignable xt et = true -> assignable (ftype f) ft = true ->
    (forall ls b, In (IBlock tag ls b) its -> ls <> [] /\ fits u b) -> field_fits f ft tag kind its Block
| ff_pairs f ft tag kind its kt et u xt : under E (ftype f) = TMap kt et -> is_pair kt -> held et u xt ->
    ~ own_method u -> assignable pair_type kt = true -> assignable xt et = true -> assignable (ftype f) ft = true ->
    (forall ls b, In (IBlock tag ls b) its -> List.length ls <= 2 /\ fits u b) -> field_fits f ft tag kind its Block.
End Fit.
