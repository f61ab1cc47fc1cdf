(* What it means that a struct comes back from its HCL text, and for which values to expect
   it. *)

From Verif Require Import Base GoType DetModel CtyModel HclModel HclSpec TagModel StructModel StructSpec MarshalSpec.
From Verif Require FitSpec.

Section Round.
Variable E : env.
Variable depth : nat.                             (* call depth of FieldByName *)
Variable is_zero : gtype -> hval -> bool.
Variable zero : gtype -> hval.
Variable to_cty : gtype -> hval -> result cval.
Variable len0 : hval -> bool.
Variable assignable : gtype -> gtype -> bool.     (* reflect's AssignableTo *)
Variable decode_attr : gtype -> cval -> result hval.
Variable own_method : gtype -> Prop.              (* the type has a method UnmarshalHCL *)

(* The second value is the first as far as the encoder looks: the exported fields, except those
   tagged "-"; maps are compared as maps; a zero value is the zero value of the type; lists and
   maps of generic data are compared as in HclSpec.v. *)
Inductive alike : gtype -> hval -> hval -> Prop :=
| al_same t v : alike t v v
| al_zero t v : is_zero t v = true -> alike t v (zero t)
| al_generic t n n' : same n n' -> alike t (HNative n) (HNative n')
| al_struct t v w fs l : under E t = TStruct fs -> leaves E [] fs l ->
    (forall f p, In (f, p) l -> alike (ftype f) (hget v p) (hget w p)) -> alike t v w
| al_ptr t u v w : under E t = TPtr u -> alike u v w -> alike t (HPtr u v) (HPtr u w)
| al_slice t et l l' : under E t = TSlice et -> Forall2 (alike et) l l' -> alike t (HSlice l) (HSlice l')
| al_map t kt et m m' : under E t = TMap kt et ->
    (forall k, lookup k m = None <-> lookup k m' = None) ->
    (forall k x y, lookup k m = Some x -> lookup k m' = Some y -> alike et x y) ->
    alike t (HMap m) (HMap m')
| al_pairs t kt et m m' : under E t = TMap kt et ->
    (forall k, lookup k m = None <-> lookup k m' = None) ->
    (forall k x y, lookup k m = Some x -> lookup k m' = Some y -> alike et x y) ->
    alike t (HMap2 m) (HMap2 m').

(* Both directions see the same fields: l for writing, with paths, and cl for reading, with
   classes. *)
Definition shared_fields (l : list (gfield * list string)) (cl : list (gfield * cls)) : Prop :=
  map fst l = map fst (filter (fun fc => claimed (snd fc)) cl).

(* The labels of a struct, in the order of its fields. *)
Definition label_texts (v : hval) (l : list (gfield * list string)) : list hval :=
  flat_map (fun fp => if string_dec (hcl_kind (fst fp)) "label" then [hget v (snd fp)] else []) l.
(* All labels are given or none is; below a map key the first label is the key, and only the
   first, or there are no labels; below a pair there are none. *)
Definition labels_return (key : list string) (texts : list hval) : Prop :=
  match key with
  | [] => Forall (fun x => exists s, x = HText s /\ s <> "") texts \/ Forall (fun x => x = HText "") texts
  | [k] => texts = [] \/ exists rest, texts = HText k :: rest /\
             Forall (fun x => exists s, x = HText s /\ s <> "" /\ s <> k) rest
  | [_; _] => texts = []
  | _ => False
  end.

(* A struct or a pointer to one. *)
Inductive struct_in : gtype -> hval -> gtype -> hval -> Prop :=
| si_self t v : is_struct E t -> struct_in t v t v
| si_ptr t u v : under E t = TPtr u -> is_struct E u -> struct_in t (HPtr u v) u v.

(* An attribute of the type, converted from the value, can be decoded. *)
Definition decodes (t u : gtype) (w : hval) : Prop := forall c, to_cty u w = Ok c -> exists x, decode_attr t c = Ok x.
(* What is left out of the text may be missing when it is read. *)
Definition may_miss (f : gfield) : Prop :=
  hcl_kind f = "optional" \/ exists u, points E (ftype f) u /\ (block_type E u \/ generic_type E u).

(* Values that come back. *)
Inductive returns : gtype -> list string -> hval -> Prop :=
| ret t key v fs l cl : under E t = TStruct fs -> ~ own_method t ->
    leaves E [] fs l -> all_fields E [] [] fs cl -> shared_fields l cl ->
    NoDup (map (fun fc => fname (fst fc)) cl) -> distinct_tags cl -> FitSpec.nests E [] depth fs ->
    (forall f p, In (f, p) l -> find_field E depth t (fname f) = Some (p, ftype f) /\ hget (zero t) p = zero (ftype f)) ->
    (forall f p, In (f, p) l -> exists n k, tag2 (ftag f) = Ok (n, k) /\ n <> "" /\ (is_label k -> k = "label")) ->
    labels_return key (label_texts v l) ->
    (forall f p, In (f, p) l -> field_returns f (hget v p)) ->
    returns t key v
with field_returns : gfield -> hval -> Prop :=
| fr_label f s : hcl_kind f = "label" -> under E (ftype f) = TBasic "string" ->
    assignable string_type (ftype f) = true -> field_returns f (HText s)
| fr_zero f v : hcl_kind f <> "label" -> is_zero (ftype f) v = true -> ~ is_struct E (ftype f) -> may_miss f ->
    field_returns f v
| fr_attr f v : attr_kind (hcl_kind f) -> simple E (ftype f) \/ (exists et, has_elem E (ftype f) et /\ simple E et) ->
    ~ empty len0 v -> (is_zero (ftype f) v = true -> may_miss f) -> decodes (ftype f) (ftype f) v -> field_returns f v
| fr_number f u w : attr_kind (hcl_kind f) -> under E (ftype f) = TPtr u -> simple E u -> decodes (ftype f) u w ->
    field_returns f (HPtr u w)
| fr_list f et l : hcl_kind f <> "label" -> under E (ftype f) = TSlice et -> is_interface E et -> l <> [] ->
    assignable (TSlice any) (ftype f) = true -> field_returns f (HNative (NList l))
| fr_map f kt et m : hcl_kind f <> "label" -> under E (ftype f) = TMap kt et -> is_interface E et -> m <> [] ->
    assignable (TMap string_type any) (ftype f) = true -> field_returns f (HNative (NMap m))
| fr_struct f v u w : hcl_kind f <> "label" -> struct_in (ftype f) v u w -> returns u [] w -> field_returns f v
| fr_slice f et l : hcl_kind f <> "label" -> under E (ftype f) = TSlice et -> l <> [] ->
    (forall x, In x l -> is_zero et x = false /\ exists u w, struct_in et x u w) ->
    (forall x u w, In x l -> struct_in et x u w -> returns u [] w) ->
    field_returns f (HSlice l)
| fr_entries f kt et m : hcl_kind f <> "label" -> under E (ftype f) = TMap kt et -> under E kt = TBasic "string" ->
    assignable string_type kt = true -> m <> [] -> NoDup (keys m) ->
    (forall k x, In (k, x) m -> exists u w, struct_in et x u w) ->
    (forall k x u w, In (k, x) m -> struct_in et x u w -> returns u [k] w) ->
    field_returns f (HMap m)
| fr_pairs f kt et m : hcl_kind f <> "label" -> under E (ftype f) = TMap kt et -> FitSpec.is_pair E kt ->
    assignable pair_type kt = true -> m <> [] -> NoDup (keys m) ->
    (forall a b x, In ((a, b), x) m -> a <> "" /\ b <> "" /\ exists u w, struct_in et x u w) ->
    (forall a b x u w, In ((a, b), x) m -> struct_in et x u w -> returns u [a; b] w) ->
    field_returns f (HMap2 m).
End Round.
