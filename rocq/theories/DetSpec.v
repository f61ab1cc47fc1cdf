(* What JSON decoding with a spec is to produce, independently of the traversals. *)

From Verif Require Import Base GoType SpecModel CollectModel CollectSpec DetModel.

(* Byte-wise order of strings, and the entry of the smallest key. *)
Inductive bytes_le : string -> string -> Prop :=
| bl_nil : forall s, bytes_le "" s
| bl_lt : forall c d s t, (byte_of c < byte_of d)%Z -> bytes_le (String c s) (String d t)
| bl_eq : forall c s t, bytes_le s t -> bytes_le (String c s) (String c t).
Definition smallest {V} (m : list (string * V)) (k : string) (v : V) : Prop :=
  lookup k m = Some v /\ forall k', In k' (keys m) -> bytes_le k k'.

Section Det.
Variable E : env.
Variable std : gtype -> gval -> option json -> gval * result unit.
Variable zero : gtype -> gval.

(* A field JSON decoding must leave alone: unexported or tagged "-". *)
Definition starts_upper (s : string) : Prop := exists c r, s = String c r /\ (65 <= byte_of c <= 90)%Z.
Definition hidden (f : gfield) : Prop :=
  ~ starts_upper (fname f) \/ ftag f = "-" \/ exists p, ftag f = (p +++ ",-").

(* The JSON name of a field: the tag up to its first comma, if that is not empty, and the
   field name otherwise. *)
Definition no_comma (s : string) : Prop := ~ In ","%char (list_ascii_of_string s).
Inductive named_in_json (f : gfield) : string -> Prop :=
| nj_tag : forall n rest, n <> "" -> no_comma n -> ftag f = n \/ ftag f = (n +++ "," +++ rest) -> named_in_json f n
| nj_field : ftag f = "" \/ (exists rest, ftag f = ("," +++ rest)) -> named_in_json f (fname f).
(* A field whose own fields are treated as fields of the enclosing struct. *)
Definition embedded (f : gfield) (gs : list gfield) : Prop :=
  ~ hidden f /\ ftag f = "" /\ fanon f = true /\ under E (ftype f) = TStruct gs.

(* An embedded field without a spec whose fields encoding/json reads in its place: a struct, or
   a pointer to one, to which no tag gives a name.  (Those of the structs without any tag have
   been taken apart before.) *)
Definition inlined (om : list (string * svalue)) (f : gfield) (gs : list gfield) : Prop :=
  fanon f = true /\ (ftag f = "" \/ exists rest, ftag f = ("," +++ rest)) /\ lookup (fname f) om = None /\
  (under E (ftype f) = TStruct gs \/ exists u, under E (ftype f) = TPtr u /\ under E u = TStruct gs).

(* The fields to be decoded, in order, with their paths. *)
Inductive flat : list gfield -> list (list string * gfield) -> Prop :=
| fl_nil : flat [] []
| fl_hidden : forall f fs l, hidden f -> flat fs l -> flat (f :: fs) l
| fl_embedded : forall f gs fs l1 l2, embedded f gs -> flat gs l1 -> flat fs l2 ->
    flat (f :: fs) (map (fun pf => (fname f :: fst pf, snd pf)) l1 ++ l2)
| fl_field : forall f fs l, ~ hidden f -> (forall gs, ~ embedded f gs) -> flat fs l ->
    flat (f :: fs) (([fname f], f) :: l).

(* Go's selector rule: p is the path of the field a struct with fields fs shows under name. *)
Inductive is_path : list gfield -> list string -> gtype -> Prop :=
| ip_here : forall fs f, In f fs -> is_path fs [fname f] (ftype f)
| ip_in : forall fs f gs p t, In f fs -> fanon f = true -> under E (ftype f) = TStruct gs ->
    is_path gs p t -> is_path fs (fname f :: p) t.
Definition selects (fs : list gfield) (name : string) (p : list string) (t : gtype) : Prop :=
  is_path fs p t /\ last p "" = name /\
  forall q u, is_path fs q u -> last q "" = name ->
    length p <= length q /\ (length q = length p -> q = p /\ u = t).

(* The classes available while decoding into a pointer to t with reference map ref:
   what the caller gave, otherwise what is found in the target type. *)
Definition merged (ref : refmap) (t : gtype) (ref' : refmap) : Prop :=
  forall c,
    match lookup c ref with
    | None | Some (RImpls _) =>
      match lookup c ref' with
      | None => True
      | Some r => exists n, r = RPtrTo (TNamed n) /\ reaches E (implementations ref) (TPtr t) n /\ key_of E n c
      end
    | Some r => lookup c ref' = Some r
    end.

(* The members of the JSON text; the entries of a JSON object or array, null and absent
   being empty; the value a repeated key ends up with. *)
Inductive members : option json -> list (string * json) -> Prop :=
| mem_null : members (Some JNull) []
| mem_obj : forall m, members (Some (JObj m)) m.
Inductive entries : option json -> list (string * json) -> Prop :=
| ent_none : entries None []
| ent_some : forall j m, members (Some j) m -> entries (Some j) m.
Inductive elements : option json -> list json -> Prop :=
| el_none : elements None []
| el_null : elements (Some JNull) []
| el_arr : forall l, elements (Some (JArr l)) l.
Definition entry {A} (m : list (string * A)) (k : string) (j : A) : Prop :=
  exists m1 m2, m = m1 ++ (k, j) :: m2 /\ ~ In k (keys m2).

(* Which nested spec applies. *)
Definition picks_list (specs : list sstruct) (k : nat) (s : sstruct) : Prop :=
  nth_error specs k = Some s \/ (length specs <= k /\ nth_error specs 0 = Some s).
Definition picks_map (specs : list (string * sstruct)) (k : string) (s : sstruct) : Prop :=
  lookup k specs = Some s \/ (lookup k specs = None /\ exists k', smallest specs k' s).
(* Two levels: under an unknown first key the entries of the smallest first key apply. *)
Definition picks_map2 (specs : list (string * list (string * sstruct))) (a b : string) (s : sstruct) : Prop :=
  exists ms, (lookup a specs = Some ms \/ (lookup a specs = None /\ exists k, smallest specs k ms)) /\
    (lookup b ms = Some s \/
     (lookup b ms = None /\ exists k ms0 k', smallest specs k ms0 /\ smallest ms0 k' s)).

Definition class_of (s : sstruct) : string := match s with SStruct c _ => c end.

(* One field, given what nested decoding is to do (D). *)
Section Field.
Variable D : sstruct -> refmap -> gtype -> gval -> option json -> gval -> Prop.
Variable ref : refmap.

(* x is a fresh instance, of type t, of the class of s, decoded from j. *)
Definition instance (s : sstruct) (j : option json) (t : gtype) (x : gval) : Prop :=
  lookup (class_of s) ref = Some (RPtrTo t) /\ D s ref t (zero t) j x.

Definition pointer_like (t : gtype) : Prop :=
  (exists ms, under E t = TIface ms) \/ (exists u, under E t = TPtr u).

(* The value of field f with spec sp (None: no spec) when its JSON text is oj; ft is the
   type of the field that is set. *)
Inductive field_value (sp : option svalue) (f : gfield) (ft : gtype) (oj : option json) : gval -> Prop :=
| fv_absent : sp = None -> oj = None -> field_value sp f ft oj (zero (ftype f))
| fv_plain : forall j v, sp = None -> oj = Some j ->
    std (ftype f) (zero (ftype f)) (Some j) = (v, Ok tt) -> field_value sp f ft oj v
| fv_single_ptr : forall s t x, sp = Some (VSingle s) -> instance s oj t x -> pointer_like ft ->
    field_value sp f ft oj (XPtr t x)
| fv_single_val : forall s t x, sp = Some (VSingle s) -> instance s oj t x -> ~ pointer_like ft ->
    field_value sp f ft oj x
| fv_list : forall specs e js l, sp = Some (VList specs) -> under E (ftype f) = TSlice e -> elements oj js ->
    length l = length js ->
    (forall k j, nth_error js k = Some j -> exists s t x,
        picks_list specs k s /\ instance s (Some j) t x /\ nth_error l k = Some (XPtr t x)) ->
    field_value sp f ft oj (XSlice l)
| fv_listmap : forall specs kt e ms r order, sp = Some (VList specs) -> under E (ftype f) = TMap kt e ->
    entries oj ms -> NoDup order -> (forall k, In k order <-> In k (keys ms)) ->
    NoDup (keys r) -> (forall k, In k (keys r) <-> In k (keys ms)) ->
    (forall i k j, nth_error order i = Some k -> entry ms k j -> exists s t x,
        picks_list specs i s /\ instance s (Some j) t x /\ lookup k r = Some (XPtr t x)) ->
    field_value sp f ft oj (XMap r)
| fv_map : forall specs ms r, sp = Some (VMap specs) -> entries oj ms ->
    NoDup (keys r) -> (forall k, In k (keys r) <-> In k (keys ms)) ->
    (forall k j, entry ms k j -> exists s t x,
        picks_map specs k s /\ instance s (Some j) t x /\ lookup k r = Some (XPtr t x)) ->
    field_value sp f ft oj (XMap r)
| fv_map2 : forall specs ms r, sp = Some (VMap2 specs) -> entries oj ms ->
    NoDup (keys r) ->
    (forall a b, In (a, b) (keys r) <-> exists j ms', entry ms a j /\ entries (Some j) ms' /\ In b (keys ms')) ->
    (forall a j ms' b j', entry ms a j -> entries (Some j) ms' -> entry ms' b j' -> exists s t x,
        picks_map2 specs a b s /\ instance s (Some j') t x /\ lookup (a, b) r = Some (XPtr t x)) ->
    field_value sp f ft oj (XMap2 r).
End Field.

(* Decoding the JSON text dat with spec s into a target of type t and prior value cur may
   produce v. *)
Inductive decoded : sstruct -> refmap -> gtype -> gval -> option json -> gval -> Prop :=
| dec_std : forall c fo ref t cur dat v, fo = None \/ fo = Some [] ->
    std t cur dat = (v, Ok tt) -> decoded (SStruct c fo) ref t cur dat v
| dec_spec : forall c om ref t cur dat v ref' fs l ms,
    om <> [] -> merged ref t ref' -> under E t = TStruct fs -> flat fs l -> members dat ms ->
    (forall p f, In (p, f) l -> exists q ft,
       selects fs (fname f) q ft /\
       field_value decoded ref' (lookup (fname f) om) f ft (jget E om (map snd l) f ms) (fields_of v q)) ->
    (forall q, (forall p f ft, In (p, f) l -> ~ selects fs (fname f) q ft) -> fields_of v q = fields_of cur q) ->
    decoded (SStruct c (Some om)) ref t cur dat v.

End Det.

(* ------------------------------------------------------- values up to map order *)

(* The same Go value: maps are compared by their entries. *)
Inductive same_val : gval -> gval -> Prop :=
| sm_opaque : forall s, same_val (XOpaque s) (XOpaque s)
| sm_struct : forall o o', (forall q, same_val (o q) (o' q)) -> same_val (XStruct o) (XStruct o')
| sm_ptr : forall t v v', same_val v v' -> same_val (XPtr t v) (XPtr t v')
| sm_slice : forall l l', Forall2 same_val l l' -> same_val (XSlice l) (XSlice l')
| sm_map : forall m m', (forall k, In k (keys m) <-> In k (keys m')) ->
    (forall k v v', lookup k m = Some v -> lookup k m' = Some v' -> same_val v v') -> same_val (XMap m) (XMap m')
| sm_map2 : forall m m', (forall k, In k (keys m) <-> In k (keys m')) ->
    (forall k v v', lookup k m = Some v -> lookup k m' = Some v' -> same_val v v') -> same_val (XMap2 m) (XMap2 m').

(* The nested specs of one field's spec. *)
Inductive in_value : sstruct -> svalue -> Prop :=
| iv_single : forall s, in_value s (VSingle s)
| iv_list : forall s l, In s l -> in_value s (VList l)
| iv_map : forall s m k, In (k, s) m -> in_value s (VMap m)
| iv_map2 : forall s m k ms k', In (k, ms) m -> In (k', s) ms -> in_value s (VMap2 m).

(* Nowhere in decoding a target of type t with spec s does a list spec with several
   entries meet a field of map type. *)
Inductive order_free (E : env) : sstruct -> refmap -> gtype -> Prop :=
| order_free_intro : forall c fo ref t,
    (forall om fs l ref' p f sv s t', fo = Some om -> under E t = TStruct fs -> flat E fs l -> In (p, f) l ->
       lookup (fname f) om = Some sv -> in_value s sv -> merged E ref t ref' ->
       lookup (class_of s) ref' = Some (RPtrTo t') -> order_free E s ref' t') ->
    (forall om fs l p f specs kt e, fo = Some om -> under E t = TStruct fs -> flat E fs l -> In (p, f) l ->
       lookup (fname f) om = Some (VList specs) -> under E (ftype f) = TMap kt e -> length specs <= 1) ->
    order_free E (SStruct c fo) ref t.
