(* What writing a struct as HCL should produce, stated without text. *)

From Verif Require Import Base GoType DetModel CtyModel HclModel HclSpec TagModel StructModel StructSpec.
Notation under := GoType.under.

(* ----- texts and values that can be written ----- *)

(* Printable ASCII and newline, return and tab, with no dollar or percent sign before a brace
   or another such sign: everything the HCL model reads. *)
Definition text_char (c : ascii) : Prop :=
  char_in 32 126 c = true \/ c = "010"%char \/ c = "013"%char \/ c = "009"%char.
Fixpoint plain_text (s : string) : Prop :=
  match s with
  | "" => True
  | String c s' =>
    text_char c
    /\ (mark_char c = true -> match s' with "" => True | String d _ => d <> "{"%char /\ mark_char d = false end)
    /\ plain_text s'
  end.

Inductive writable : cval -> Prop :=
| wr_str s : plain_text s -> writable (CStr s)
| wr_bool b : writable (CBool b)
| wr_num z : writable (CNum (mkD z 0))
| wr_tup l : (forall c, In c l -> writable c) -> writable (CTup l)
| wr_obj m : NoDup (keys m) -> (forall k c, In (k, c) m -> good_key k /\ writable c) -> writable (CObj m).

(* ----- fields ----- *)

(* The name and kind of a field in the text; without a tag the name is that of the field in
   lower case. *)
Definition hcl_name (f : gfield) : string :=
  match tag2 (ftag f) with
  | Ok (n, _) => if string_dec n "" then to_lower (fname f) else n
  | _ => ""
  end.
Definition hcl_kind (f : gfield) : string :=
  match tag2 (ftag f) with
  | Ok (n, k) => if string_dec n "" then "" else k
  | _ => ""
  end.
Definition attr_kind (k : string) : Prop := k = "" \/ k = "attr" \/ k = "optional".

(* The fields that are written, with their paths: those of embedded structs without a tag
   stand in their place; those behind embedded pointers too, at paths with a star before the
   name of the pointer. *)
Definition starred (name : string) : string := String "*" name.
Definition behind_pointer (p : list string) : bool :=
  existsb (fun s => match s with String c _ => Ascii.eqb c "*" | "" => false end) p.
Inductive leaves (E : env) : list string -> list gfield -> list (gfield * list string) -> Prop :=
| lv_nil p : leaves E p [] []
| lv_hidden p f fs l : is_exported (fname f) = false -> leaves E p fs l -> leaves E p (f :: fs) l
| lv_dash p f fs l k : tag2 (ftag f) = Ok ("-", k) -> leaves E p fs l -> leaves E p (f :: fs) l
| lv_embedded p f fs l gs l' k : is_exported (fname f) = true -> tag2 (ftag f) = Ok ("", k) -> fanon f = true ->
    under E (ftype f) = TStruct gs -> leaves E (p ++ [fname f]) gs l' -> leaves E p fs l ->
    leaves E p (f :: fs) (l' ++ l)
| lv_embedded_ptr p f fs l u gs l' k : is_exported (fname f) = true -> tag2 (ftag f) = Ok ("", k) -> fanon f = true ->
    under E (ftype f) = TPtr u -> under E u = TStruct gs -> leaves E (p ++ [starred (fname f)]) gs l' -> leaves E p fs l ->
    leaves E p (f :: fs) (l' ++ l)
| lv_embedded_other p f fs l k : is_exported (fname f) = true -> tag2 (ftag f) = Ok ("", k) -> fanon f = true ->
    ~ is_struct E (ftype f) -> ~ is_pointer E (ftype f) -> leaves E p fs l -> leaves E p (f :: fs) l
| lv_field p f fs l n k : is_exported (fname f) = true -> tag2 (ftag f) = Ok (n, k) -> n <> "-" ->
    (fanon f = true -> n <> "") -> leaves E p fs l -> leaves E p (f :: fs) ((f, (p ++ [fname f])%list) :: l).

(* The embedded pointers without a tag: their types and paths. *)
Inductive embedded_ptr (E : env) : list string -> list gfield -> gtype -> list string -> Prop :=
| ep_here p fs f k u : In f fs -> is_exported (fname f) = true -> tag2 (ftag f) = Ok ("", k) -> fanon f = true ->
    under E (ftype f) = TPtr u -> embedded_ptr E p fs (ftype f) (p ++ [fname f])
| ep_struct p fs f k gs t q : In f fs -> is_exported (fname f) = true -> tag2 (ftag f) = Ok ("", k) -> fanon f = true ->
    under E (ftype f) = TStruct gs -> embedded_ptr E (p ++ [fname f]) gs t q -> embedded_ptr E p fs t q
| ep_ptr p fs f k u gs t q : In f fs -> is_exported (fname f) = true -> tag2 (ftag f) = Ok ("", k) -> fanon f = true ->
    under E (ftype f) = TPtr u -> under E u = TStruct gs -> embedded_ptr E (p ++ [starred (fname f)]) gs t q ->
    embedded_ptr E p fs t q.

Definition is_coll (E : env) (t : gtype) : Prop := exists et, has_elem E t et.
(* Elements that are not written as blocks. *)
Definition simple (E : env) (t : gtype) : Prop :=
  exists u, under E t = u /\ match u with TBasic _ | TArray _ => True | _ => False end.

(* The type and value of a field, through a pointer to a slice or map. *)
Inductive through (E : env) : gtype -> hval -> gtype -> hval -> Prop :=
| th_self t v : (forall u, under E t = TPtr u -> ~ is_coll E u) -> through E t v t v
| th_ptr t u u' w : under E t = TPtr u -> is_coll E u -> through E t (HPtr u' w) u w.

(* The struct in a value of type t: the value itself, or behind a pointer, or in an interface;
   with whether it is addressable, given whether the value is. *)
Inductive holds (E : env) : bool -> gtype -> hval -> bool -> gtype -> hval -> Prop :=
| holds_struct addr t v : is_struct E t -> holds E addr t v addr t v
| holds_ptr addr t u v : under E t = TPtr u -> is_struct E u -> holds E addr t (HPtr u v) true u v
| holds_iface addr t u v : is_interface E t -> is_struct E u -> holds E addr t (HPtr u v) true u v
| holds_dyn addr t u v : is_interface E t -> is_struct E u -> holds E addr t (HDyn u v) false u v.

Definition int_kind (k : string) : Prop :=
  In k ["int"; "int8"; "int16"; "int32"; "int64"; "uint"; "uint8"; "uint16"; "uint32"; "uint64"].

(* The predeclared types of strings, numbers and booleans that are written in slices and maps. *)
Definition scalar_kind (k : string) : Prop :=
  In k ["bool"; "int"; "int8"; "int16"; "int32"; "int64"; "uint"; "uint8"; "uint16"; "uint32"; "uint64"; "float32"; "float64"].

Section Spec.
Variable E : env.
Variable is_zero : gtype -> hval -> bool.
Variable to_cty : gtype -> hval -> result cval.
Variable len0 : hval -> bool.
Variable method : gtype -> Prop.          (* the type has a method MarshalHCL *)

(* Nothing is written for a zero value, except for a struct that is addressable. *)
Definition absent (addr : bool) (t : gtype) (v : hval) : Prop :=
  is_zero t v = true /\ (is_struct E t -> addr = false).
(* A zero struct in an interface, for which nothing is written either. *)
Definition hollow (t : gtype) (v : hval) : Prop :=
  is_interface E t /\ exists u w, v = HDyn u w /\ is_zero u w = true.

(* A collection without elements. *)
Inductive empty : hval -> Prop :=
| em_slice : empty (HSlice [])
| em_map : empty (HMap [])
| em_map2 : empty (HMap2 [])
| em_list n : n = NList [] \/ n = NNilList -> empty (HNative n)
| em_object n : n = NMap [] \/ n = NNilMap -> empty (HNative n)
| em_other s : len0 (HOpaque s) = true -> empty (HOpaque s).

(* A number or boolean behind a pointer. *)
Inductive number : gtype -> hval -> cval -> Prop :=
| number_int u w k z : under E u = TBasic k -> int_kind k -> to_cty u w = Ok (CNum (mkD z 0)) ->
    number u w (CNum (mkD z 0))
| number_bool u w b : under E u = TBasic "bool" -> to_cty u w = Ok (CBool b) -> number u w (CBool b).

(* A field that is written as an attribute. *)
Definition attr_type (t : gtype) (v : hval) : Prop :=
  simple E t \/ exists et, has_elem E t et /\ simple E et /\ ~ empty v.

(* Slices and maps of types that can be written as one expression, with the generic data they
   stand for.  Places are those of HclSpec.v. *)
Definition generic (t : gtype) (n : native) : Prop :=
  is_interface E t
  \/ (exists et l, under E t = TSlice et /\ is_interface E et /\ n = NList l)
  \/ (exists kt et m, under E t = TMap kt et /\ is_interface E et /\ n = NMap m).
Definition may_be_nil (t : gtype) : Prop := is_interface E t \/ is_pointer E t \/ is_coll E t.
Definition entry_place (p : place_of) : place_of := match p with InList => InObj | _ => InFlat end.
Inductive data : place_of -> gtype -> hval -> native -> Prop :=
| da_text p s : quotable s -> (p = InList -> is_zero (TBasic "string") (HText s) = false) ->
    data p (TBasic "string") (HText s) (NStr s)
| da_scalar p k n : scalar_kind k -> scalar n -> (p = InList -> is_zero (TBasic k) (HNative n) = false) ->
    data p (TBasic k) (HNative n) n
| da_generic p t n : generic t n -> is_zero t (HNative n) = false -> n <> NNil -> supported p n ->
    data p t (HNative n) n
| da_dyn p t u w n : is_interface E t -> ~ is_interface E u -> is_zero t (HDyn u w) = false -> is_zero u w = false ->
    data p u w n -> data p t (HDyn u w) n
| da_nil_elem t v et : under E t = TSlice et -> is_zero t v = true -> data InList t v NNilList
| da_nil p t v : p <> InList -> may_be_nil t -> is_zero t v = true -> data p t v NNil
| da_slice p t et l ns : under E t = TSlice et \/ under E t = TArray et -> is_zero t (HSlice l) = false ->
    elements et l ns -> data p t (HSlice l) (NList ns)
| da_map p t kt et m ns : under E t = TMap kt et -> under E kt = TBasic "string" -> ~ is_interface E et ->
    is_zero t (HMap m) = false -> NoDup (keys m) -> members (entry_place p) et m ns -> data p t (HMap m) (NMap ns)
with elements : gtype -> list hval -> list native -> Prop :=
| el_nil et : elements et [] []
| el_cons et x l n ns : data InList et x n -> elements et l ns -> elements et (x :: l) (n :: ns)
with members : place_of -> gtype -> list (string * hval) -> list (string * native) -> Prop :=
| me_nil p et : members p et [] []
| me_cons p et k x m n ns : good_key k -> data p et x n -> members p et m ns -> members p et ((k, x) :: m) ((k, n) :: ns).

(* A field with such data that is written as an attribute. *)
Inductive data_field : gtype -> hval -> native -> Prop :=
| df_slice t et l n : under E t = TSlice et -> is_coll E et \/ is_interface E et -> l <> [] ->
    is_zero t (HSlice l) = false ->    data InBody t (HSlice l) n -> data_field t (HSlice l) n
| df_map t kt et m n : under E t = TMap kt et -> is_coll E et -> m <> [] ->
    is_zero t (HMap m) = false -> data InBody t (HMap m) n -> data_field t (HMap m) n.

(* The entries of a map with the labels of their keys; empty strings give none. *)
Definition labels_of_key (ab : string * string) : list string :=
  filter (fun s => if string_dec s "" then false else true) [fst ab; snd ab].
Inductive entries_of : hval -> list (list string * hval) -> Prop :=
| ents_map n : entries_of (HMap n) (map (fun kv : string * hval => ([fst kv], snd kv)) n)
| ents_map2 n : entries_of (HMap2 n) (map (fun kv : (string * string) * hval => (labels_of_key (fst kv), snd kv)) n).

(* ----- values that can be written ----- *)

(* addr: the struct is addressable, that is, it was reached through a pointer. *)
Inductive can_write : bool -> gtype -> hval -> Prop :=
| can_struct (addr : bool) t v fs l : under E t = TStruct fs -> leaves E [] fs l ->
    (if addr then forall pt, under E pt = TPtr t -> ~ method pt else ~ method t) ->
    NoDup (map (fun fp => fname (fst fp)) l) -> NoDup (map (fun fp => hcl_name (fst fp)) l) ->
    (forall f p, In (f, p) l -> ident (hcl_name f)) ->
    (forall pt q, embedded_ptr E [] fs pt q -> is_zero pt (hget v q) = false) ->
    (forall f p, In (f, p) l -> can_field (addr || behind_pointer p) f (hget v p)) ->
    can_write addr t v
with can_field : bool -> gfield -> hval -> Prop :=
| can_absent addr f v : absent addr (ftype f) v -> can_field addr f v
| can_hollow addr f v : hollow (ftype f) v -> can_field addr f v
| can_absent_coll addr f v t w : through E (ftype f) v t w -> is_coll E t -> is_zero t w = true -> can_field addr f v
| can_label addr f s k : under E (ftype f) = TBasic k -> hcl_kind f = "label" -> is_zero (ftype f) (HText s) = false ->
    quotable s -> can_field addr f (HText s)
| can_attr addr f v c : attr_kind (hcl_kind f) -> is_zero (ftype f) v = false -> attr_type (ftype f) v ->
    to_cty (ftype f) v = Ok c -> writable c -> can_field addr f v
| can_number addr f u u' w c : under E (ftype f) = TPtr u -> ~ method (ftype f) -> number u w c ->
    can_field addr f (HPtr u' w)
| can_empty addr f v t w : through E (ftype f) v t w -> is_coll E t -> is_zero t w = false -> empty w ->
    can_field addr f v
| can_list addr f v t et l : through E (ftype f) v t (HNative (NList l)) -> under E t = TSlice et -> is_interface E et ->
    is_zero t (HNative (NList l)) = false -> l <> [] -> supported InBody (NList l) -> can_field addr f v
| can_map addr f v t kt et m : through E (ftype f) v t (HNative (NMap m)) -> under E t = TMap kt et ->
    is_interface E et -> is_zero t (HNative (NMap m)) = false -> m <> [] -> body_map m -> can_field addr f v
| can_data addr f v t w n : through E (ftype f) v t w -> data_field t w n -> can_field addr f v
| can_block (addr : bool) f v a u w : holds E addr (ftype f) v a u w ->
    is_zero (ftype f) v = false \/ (is_struct E (ftype f) /\ addr = true) -> ~ hollow (ftype f) v ->
    can_write a u w -> can_field addr f v
| can_blocks addr f v t et l : through E (ftype f) v t (HSlice l) -> under E t = TSlice et ->
    is_zero t (HSlice l) = false -> l <> [] ->
    (is_interface E et -> forall x, In x l -> is_zero et x = false) -> ~ simple E et -> ~ is_coll E et ->
    (forall x, In x l -> is_zero et x = false -> exists a u w, holds E false et x a u w) ->
    (forall x a u w, In x l -> is_zero et x = false -> ~ hollow et x -> holds E false et x a u w -> can_write a u w) ->
    can_field addr f v
| can_entries addr f v t kt et w m : through E (ftype f) v t w -> under E t = TMap kt et -> entries_of w m ->
    is_zero t w = false -> m <> [] ->
    (forall ls x, In (ls, x) m -> Forall quotable ls /\ (is_interface E et -> is_zero et x = false) /\ exists a u w, holds E false et x a u w) ->
    (forall ls x a u w, In (ls, x) m -> holds E false et x a u w -> can_write a u w) ->
    can_field addr f v.

(* ----- what is written ----- *)

(* The labels, attributes and further items that a field gives. *)
Record part := Part { pt_labels : list string; pt_attrs : list item; pt_outs : list item }.
Definition nothing : part := Part [] [] [].

(* The body of the struct v of type t, and its labels; key are the labels that the key of a
   map has given already. *)
Inductive represents : bool -> gtype -> hval -> list string -> list string -> list item -> Prop :=
| rep addr t v key fs l ps : under E t = TStruct fs -> leaves E [] fs l ->
    Forall2 (fun fp p => field_part (addr || behind_pointer (snd fp)) key (fst fp) (hget v (snd fp)) p) l ps ->
    represents addr t v key (flat_map pt_labels ps) (flat_map pt_attrs ps ++ flat_map pt_outs ps)
with field_part : bool -> list string -> gfield -> hval -> part -> Prop :=
| fp_absent addr key f v : absent addr (ftype f) v -> field_part addr key f v nothing
| fp_hollow addr key f v : hollow (ftype f) v -> field_part addr key f v nothing
| fp_absent_coll addr key f v t w : through E (ftype f) v t w -> is_coll E t -> is_zero t w = true ->
    field_part addr key f v nothing
| fp_label addr key f s : hcl_kind f = "label" -> is_zero (ftype f) (HText s) = false ->
    hd_error key <> Some s -> field_part addr key f (HText s) (Part [s] [] [])
| fp_label_key addr key f s : hcl_kind f = "label" -> is_zero (ftype f) (HText s) = false ->
    hd_error key = Some s -> field_part addr key f (HText s) nothing
| fp_attr addr key f v c e : attr_kind (hcl_kind f) -> is_zero (ftype f) v = false -> attr_type (ftype f) v ->
    to_cty (ftype f) v = Ok c -> means e c -> field_part addr key f v (Part [] [IAttr (hcl_name f) e] [])
| fp_number addr key f u u' w c e : under E (ftype f) = TPtr u -> number u w c -> means e c ->
    field_part addr key f (HPtr u' w) (Part [] [] [IAttr (hcl_name f) e])
| fp_empty_slice addr key f v t w et : through E (ftype f) v t w -> under E t = TSlice et -> is_zero t w = false ->
    empty w -> field_part addr key f v (Part [] [] [IAttr (hcl_name f) (ETuple [])])
| fp_empty_map addr key f v t w kt et : through E (ftype f) v t w -> under E t = TMap kt et -> is_zero t w = false ->
    empty w -> field_part addr key f v (Part [] [] [IBlock (hcl_name f) [] []])
| fp_list addr key f v t et l e : through E (ftype f) v t (HNative (NList l)) -> under E t = TSlice et ->
    is_interface E et -> l <> [] -> good_expr e -> (forall n, expr_value e n -> same (NList l) n) ->
    field_part addr key f v (Part [] [] [IAttr (hcl_name f) e])
| fp_map addr key f v t kt et m b : through E (ftype f) v t (HNative (NMap m)) -> under E t = TMap kt et ->
    is_interface E et -> m <> [] -> (forall i, In i b -> good_item i) -> (forall n, body_value b n -> same (NMap m) n) ->
    field_part addr key f v (Part [] [] [IBlock (hcl_name f) [] b])
| fp_data addr key f v t w n e : through E (ftype f) v t w -> data_field t w n -> good_expr e ->
    (forall n', expr_value e n' -> same n n') -> field_part addr key f v (Part [] [] [IAttr (hcl_name f) e])
| fp_block (addr : bool) key f v a u w ls b : holds E addr (ftype f) v a u w ->
    is_zero (ftype f) v = false \/ (is_struct E (ftype f) /\ addr = true) -> ~ hollow (ftype f) v ->
    represents a u w [] ls b -> field_part addr key f v (Part [] [] [IBlock (hcl_name f) ls b])
| fp_blocks addr key f v t et l its : through E (ftype f) v t (HSlice l) -> under E t = TSlice et -> ~ simple E et ->
    ~ is_coll E et -> l <> [] ->
    is_zero t (HSlice l) = false -> elem_blocks (hcl_name f) et l its -> field_part addr key f v (Part [] [] its)
| fp_entries addr key f v t kt et w m its : through E (ftype f) v t w -> under E t = TMap kt et ->
    entries_of w m -> m <> [] -> is_zero t w = false -> entry_blocks (hcl_name f) et m its ->
    field_part addr key f v (Part [] [] its)
(* One block for each element of a slice that is not zero. *)
with elem_blocks : string -> gtype -> list hval -> list item -> Prop :=
| eb_nil name et : elem_blocks name et [] []
| eb_zero name et x l its : is_zero et x = true -> elem_blocks name et l its -> elem_blocks name et (x :: l) its
| eb_hollow name et x l its : hollow et x -> elem_blocks name et l its -> elem_blocks name et (x :: l) its
| eb_cons name et x a u w ls b l its : is_zero et x = false -> ~ hollow et x -> holds E false et x a u w -> represents a u w [] ls b ->
    elem_blocks name et l its -> elem_blocks name et (x :: l) (IBlock name ls b :: its)
(* One block for each entry of a map. *)
with entry_blocks : string -> gtype -> list (list string * hval) -> list item -> Prop :=
| nb_nil name et : entry_blocks name et [] []
| nb_cons name et key x a u w ls b m its : holds E false et x a u w -> represents a u w key ls b ->
    entry_blocks name et m its -> entry_blocks name et ((key, x) :: m) (IBlock name (key ++ ls) b :: its).
End Spec.
