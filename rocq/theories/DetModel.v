(* Model of det/util.go and det/unmarshal.go: JSON decoding into a Go struct whose
   interface fields are determined by a spec. *)

From Verif Require Import Base GoType SpecModel CollectModel.

(* ------------------------------------------------------------ JSON and values *)

(* A JSON value; numbers keep their text.  Byte slices holding JSON are modelled by
   "option json": None is text that is not a JSON value, in particular the empty text. *)
Inductive json : Type :=
| JNull | JBool (b : bool) | JNum (s : string) | JStr (s : string)
| JArr (l : list json) | JObj (m : list (string * json)).

(* Go values.  A struct is given by the value at every field path: the path of a field is
   its name, preceded by the names of the embedded structs it is promoted through.
   XPtr t v is a non-nil pointer (or interface holding one) to a value v of type t. *)
Inductive gval : Type :=
| XOpaque (s : string)
| XStruct (o : list string -> gval)
| XPtr (t : gtype) (v : gval)
| XSlice (l : list gval)
| XMap (m : list (string * gval))
| XMap2 (m : list ((string * string) * gval)).

Definition fields_of (v : gval) : list string -> gval :=
  match v with XStruct o => o | _ => fun _ => XOpaque "invalid" end.

Fixpoint path_eqb (p q : list string) : bool :=
  match p, q with
  | [], [] => true
  | x :: p', y :: q' => String.eqb x y && path_eqb p' q'
  | _, _ => false
  end.

Definition upd (v : gval) (p : list string) (x : gval) : gval :=
  XStruct (fun q => if path_eqb q p then x else fields_of v q).

(* ------------------------------------------------------------------- det/util.go *)

(* One value of the caller's ref map: a pointer to a value of type t; a []any of listed
   implementations; the nil interface; or something clone cannot handle (det/util.go:47-49
   calls Elem on its type, which panics). *)
Inductive refval : Type :=
| RPtrTo (t : gtype)
| RImpls (l : list (option gtype))
| RNilVal
| RNotPtr.
Definition refmap := list (string * refval).

(* getRef with clone, det/util.go:15-21,47-49: the type of the fresh zero instance.  A
   []any value panics in clone only if used; the merge at unmarshal.go:47-51 removes them,
   but the model keeps the case: Elem of []any is the interface type. *)
Definition get_ref (ref : refmap) (cls : string) : result gtype :=
  match lookup cls ref with
  | None | Some RNilVal => Err "class ref not found"
  | Some (RPtrTo t) => Ok t
  | Some (RImpls _) => Ok (TIface [])
  | Some RNotPtr => Panic "reflect: Elem of invalid type"
  end.

(* sort.Strings (Go library), byte-wise order; modelled by insertion sort. *)
Fixpoint ins_sorted (s : string) (l : list string) : list string :=
  match l with
  | [] => [s]
  | t :: l' => if String.leb s t then s :: l else t :: ins_sorted s l'
  end.
Definition sort_strings (l : list string) : list string := fold_right ins_sorted [] l.

(* getFirstFromMap, det/util.go:24-35; list order is the iteration order; None is the
   zero value of V. *)
Definition get_first_from_map {V} (m : list (string * V)) : option V :=
  match sort_strings (keys m) with
  | [] => None
  | k :: _ => lookup k m
  end.

(* unicode.IsUpper([]rune(name)[0]), det/util.go:57.  Simplification: names start with
   an ASCII character. *)
Definition is_exported (name : string) : bool :=
  match name with "" => false | String c _ => (65 <=? byte_of c)%Z && (byte_of c <=? 90)%Z end.

(* strings.HasSuffix *)
Fixpoint has_suffix (s suf : string) : bool :=
  String.eqb s suf || match s with "" => false | String _ s' => has_suffix s' suf end.

(* det/util.go:61 *)
Definition tag_skipped (tag : string) : bool := String.eqb tag "-" || has_suffix tag ",-".

(* The five shapes a field of the intermediate struct can have, det/util.go:75-95. *)
Inductive rawkind : Type := KPlain | KRaw | KRawList | KRawMap | KRawMap2.

(* A field of the intermediate struct, with the original field (origTypes) and, for
   stating theorems, the path of that original field. *)
Record nfield := NF { nf_field : gfield; nf_path : list string; nf_kind : rawkind }.
Definition nf_name (x : nfield) : string := fname (nf_field x).

Section Det.
Variable E : env.
(* Call depth available to the recursive traversals of types. *)
Variable depth : nat.

Definition kind_of (objectMap : list (string * svalue)) (f : gfield) : rawkind :=
  match lookup (fname f) objectMap with
  | None => KPlain
  | Some (VMap2 _) => KRawMap2
  | Some (VMap _) => KRawMap
  | Some (VList _) => match under E (ftype f) with TMap _ _ => KRawMap | _ => KRawList end
  | Some (VSingle _) => KRaw
  end.

(* loopFields, det/util.go:51-98, for the struct with fields fs reached through the
   embedded structs named in prefix.  None: fuel exhausted (embedding is never circular
   in Go). *)
Fixpoint loop_fields (fuel : nat) (objectMap : list (string * svalue)) (prefix : list string)
    (fs : list gfield) : option (list nfield) :=
  match fuel with
  | O => None
  | S fuel' =>
    (fix go (fs : list gfield) : option (list nfield) :=
      match fs with
      | [] => Some []
      | f :: fs' =>
        if negb (is_exported (fname f)) then go fs'                       (* 57-59 *)
        else if tag_skipped (ftag f) then go fs'                          (* 60-63 *)
        else
          let plain :=
            match go fs' with
            | Some r => Some (NF f (prefix ++ [fname f]) (kind_of objectMap f) :: r)
            | None => None
            end in
          match under E (ftype f) with
          | TStruct gs =>
            if String.eqb (ftag f) "" && fanon f then                     (* 64-74 *)
              match loop_fields fuel' objectMap (prefix ++ [fname f]) gs, go fs' with
              | Some a, Some b => Some (a ++ b)
              | _, _ => None
              end
            else plain
          | _ => plain                                                    (* 75-95 *)
          end
      end) fs
  end.

(* reflect.Value.FieldByName (Go library): breadth first over embedded structs; None if
   absent or ambiguous at the depth where the name first occurs.  Simplification:
   embedded pointers are not followed, as if the fields behind them had other names. *)
Definition level_matches (name : string) (lv : list (list string * list gfield)) : list (list string * gtype) :=
  flat_map (fun pf => flat_map (fun f => if String.eqb (fname f) name then [(fst pf ++ [name], ftype f)] else [])
                        (snd pf)) lv.
Definition next_level (lv : list (list string * list gfield)) : list (list string * list gfield) :=
  flat_map (fun pf => flat_map (fun f => match under E (ftype f) with
      | TStruct gs => if fanon f then [(fst pf ++ [fname f], gs)] else []
      | _ => [] end) (snd pf)) lv.
Fixpoint field_by_name (fuel : nat) (name : string) (lv : list (list string * list gfield))
  : option (list string * gtype) :=
  match fuel with
  | O => None
  | S fuel' =>
    match level_matches name lv with
    | [x] => Some x
    | [] => match next_level lv with [] => None | lv' => field_by_name fuel' name lv' end
    | _ => None
    end
  end.

(* --------------------------------------------- encoding/json, Go library *)

(* json.Unmarshal(dat, p) for a pointer p to a value of type t: new value and error. *)
Variable std : gtype -> gval -> option json -> gval * result unit.
(* The zero value of a type. *)
Variable zero : gtype -> gval.
(* reflect assignability of a value of the first type to a variable of the second. *)
Variable assignable : gtype -> gtype -> bool.
(* The iteration order of Go maps (rawField.MapKeys()). *)
Variable perm : list (string * json) -> list (string * json).

(* The name encoding/json uses for a field: the tag up to a comma, or the field name. *)
Fixpoint upto_comma (s : string) : string :=
  match s with "" => "" | String c s' => if Ascii.eqb c "," then "" else String c (upto_comma s') end.
Definition json_name (f : gfield) : string :=
  let n := upto_comma (ftag f) in if String.eqb n "" then fname f else n.

(* Case folding of keys; simplification: ASCII letters only. *)
Definition lower (c : ascii) : ascii :=
  if ((65 <=? byte_of c) && (byte_of c <=? 90))%Z then ascii_of_N (N_of_ascii c + 32) else c.
Fixpoint fold_key (s : string) : string :=
  match s with "" => "" | String c s' => String (lower c) (fold_key s') end.

Definition tagged (f : gfield) : bool := negb (String.eqb (upto_comma (ftag f)) "").

(* The fields that encoding/json finds in place of an embedded field f: those of the struct
   it is, or points to, unless a tag gives f a name of its own. *)
Definition promotes (f : gfield) : option (list gfield) :=
  if fanon f && negb (tagged f) then
    match under E (ftype f) with
    | TStruct gs => Some gs
    | TPtr u => match under E u with TStruct gs => Some gs | _ => None end
    | _ => None
    end
  else None.

(* A name that encoding/json knows: the field of the intermediate struct it is in, how deep,
   the name, and whether it comes from a tag.  In the order of declaration.  An embedded type
   that embeds itself through a pointer is followed as often as there are types, which finds
   all its names. *)
Record jname := JName { jn_owner : string; jn_depth : nat; jn_name : string; jn_tagged : bool }.
Definition in_json (f : gfield) : bool := is_exported (fname f) && negb (String.eqb (ftag f) "-").
Fixpoint inner_names (fuel : nat) (owner : string) (d : nat) (fs : list gfield) : list jname :=
  match fuel with
  | O => []
  | S fuel' =>
    flat_map (fun f => match promotes f with
                       | Some gs => inner_names fuel' owner (S d) gs
                       | None => if in_json f then [JName owner d (json_name f) (tagged f)] else []
                       end) fs
  end.
Definition json_names (fs : list gfield) : list jname :=
  flat_map (fun f => match promotes f with
                     | Some gs => inner_names (S (length E)) (fname f) 1 gs
                     | None => [JName (fname f) 0 (json_name f) (tagged f)]
                     end) fs.

(* encoding/json's rule for a name that occurs several times: of the least deep ones the only
   one, or else the only one whose name comes from a tag, or else none of them. *)
Definition dominant (ns : list jname) (n : jname) : bool :=
  let same := filter (fun g => String.eqb (jn_name g) (jn_name n)) ns in
  forallb (fun g => jn_depth n <=? jn_depth g) same &&
  match filter (fun g => jn_depth g =? jn_depth n) same with
  | [_] => true
  | near => jn_tagged n && match filter jn_tagged near with [_] => true | _ => false end
  end.

(* The name, among those of a struct with fields fs, that an object key stands for: the one
   that is equal, otherwise the first that is equal up to case. *)
Definition field_for (fs : list gfield) (key : string) : option jname :=
  let ns := filter (dominant (json_names fs)) (json_names fs) in
  match find (fun n => String.eqb (jn_name n) key) ns with
  | Some n => Some n
  | None => find (fun n => String.eqb (fold_key (jn_name n)) (fold_key key)) ns
  end.

(* The fields as they are in the intermediate struct: one with a spec is not embedded
   (det/util.go:76). *)
Definition in_raw (objectMap : list (string * svalue)) (f : gfield) : gfield :=
  match lookup (fname f) objectMap with
  | Some _ => GField (fname f) false (ftag f) (ftype f)
  | None => f
  end.

(* The JSON text given for field f of the intermediate struct, which has the fields fs: the
   last key that stands for it; for an embedded field, an object of all the keys that stand
   for one of its fields.  Simplification: when several keys stand for one field,
   encoding/json decodes a plain field from each of them in turn; the model takes the last
   one. *)
Definition owned (fs : list gfield) (f : gfield) (kj : string * json) : bool :=
  match field_for fs (fst kj) with Some n => String.eqb (jn_owner n) (fname f) | None => false end.
Definition jget (objectMap : list (string * svalue)) (fs : list gfield) (f : gfield) (m : list (string * json))
  : option json :=
  match filter (owned (map (in_raw objectMap) fs) f) m with
  | [] => None
  | kj :: l => Some (match promotes (in_raw objectMap f) with
                     | Some _ => JObj (kj :: l)
                     | None => snd (last l kj)
                     end)
  end.

(* Decoding a JSON object into a Go map: the last of repeated keys wins. *)
Definition dedup {A} (m : list (string * A)) : list (string * A) :=
  fold_left (fun acc kv => insert (fst kv) (snd kv) acc) m [].

(* The contents of the fields of the intermediate struct after json.Unmarshal. *)
Inductive rawval : Type :=
| RVPlain (v : gval) | RVRaw (j : option json) | RVList (l : list json)
| RVMap (m : list (string * json)) | RVMap2 (m : list (string * list (string * json))).

(* Decoding into map[string]json.RawMessage, in iteration order. *)
Definition raw_map (oj : option json) : result (list (string * json)) :=
  match oj with
  | None | Some JNull => Ok []
  | Some (JObj m) => Ok (perm (dedup m))
  | Some _ => Err "json: cannot unmarshal into map"
  end.
Definition raw_list (oj : option json) : result (list json) :=
  match oj with
  | None | Some JNull => Ok []
  | Some (JArr l) => Ok l
  | Some _ => Err "json: cannot unmarshal into slice"
  end.

(* One field of json.Unmarshal(dat, raw), unmarshal.go:62, given its JSON text. *)
Definition raw_field (x : nfield) (oj : option json) : result rawval :=
  match nf_kind x with
  | KPlain =>
    match oj with
    | None => Ok (RVPlain (zero (ftype (nf_field x))))
    | Some j => let (v, r) := std (ftype (nf_field x)) (zero (ftype (nf_field x))) (Some j) in
                do _ <- r; Ok (RVPlain v)
    end
  | KRaw => Ok (RVRaw oj)
  | KRawList => do l <- raw_list oj; Ok (RVList l)
  | KRawMap => do m <- raw_map oj; Ok (RVMap m)
  | KRawMap2 =>
    do m <- raw_map oj;
    do m2 <- mapr (fun kj => do inner <- raw_map (Some (snd kj)); Ok (fst kj, inner)) m;
    Ok (RVMap2 m2)
  end.

(* json.Unmarshal(dat, raw), unmarshal.go:62-65: all fields, or an error. *)
Definition raw_struct (objectMap : list (string * svalue)) (nfs : list nfield) (dat : option json) : result (list rawval) :=
  match dat with
  | None => Err "unexpected end of JSON input"
  | Some JNull => mapr (fun x => raw_field x None) nfs
  | Some (JObj m) => mapr (fun x => raw_field x (jget objectMap (map nf_field nfs) (nf_field x) m)) nfs
  | Some _ => Err "json: cannot unmarshal into struct"
  end.

(* -------------------------------------------------------- det/unmarshal.go *)

(* A nested spec: its class name and the recursive call of JsonUnmarshal with it, as a
   function of ref, the type and value of the target, and the JSON text.  (The recursion
   is structural in the spec; passing the calls as functions is what lets Coq see it.) *)
Definition nested : Type := (string * (refmap -> gtype -> gval -> option json -> gval * result unit))%type.

(* getRef, clone and the recursive call: unmarshal.go:129-136,179-186,202-209,270-278. *)
Definition decode_one (ref : refmap) (ns : nested) (v : option json) : result (gtype * gval) :=
  do t <- get_ref ref (fst ns);
  let (x, r) := snd ns ref t (zero t) v in
  do _ <- r; Ok (t, x).

(* handleMapStruct, unmarshal.go:110-141, up to f.Set. *)
Fixpoint map_loop (ref : refmap) (kt et : gtype) (specs : list (string * nested)) (first : nested)
    (raw : list (string * json)) (acc : list (string * gval)) : result (list (string * gval)) :=
  match raw with
  | [] => Ok acc
  | (key, v) :: raw' =>
    let next := match lookup key specs with Some s => s | None => first end in
    do tx <- decode_one ref next (Some v);
    let (t, x) := tx : gtype * gval in
    if assignable (TBasic "string") kt && assignable (TPtr t) et
    then map_loop ref kt et specs first raw' (insert key (XPtr t x) acc)
    else Panic "reflect: value not assignable in SetMapIndex"
  end.
Definition handle_map (ftyp : gtype) (specs : list (string * nested)) (ref : refmap)
    (raw : list (string * json)) : result gval :=
  match get_first_from_map specs with
  | None => Err "missing map struct"
  | Some first =>
    match under E ftyp with
    | TMap kt et => do m <- map_loop ref kt et specs first raw []; Ok (XMap m)
    | _ => Panic "reflect.MakeMap of non-map type"
    end
  end.

(* The k-th entry, or the first, unmarshal.go:174-177. *)
Definition nth_or_first {A} (specs : list A) (first : A) (k : nat) : A :=
  match nth_error specs k with Some s => s | None => first end.

(* handleListOrMapStruct, unmarshal.go:146-199, up to f.Set: the slice branch and the map
   branch of the loop. *)
Fixpoint list_loop (ref : refmap) (et : gtype) (specs : list nested) (first : nested) (k : nat)
    (raw : list json) : result (list gval) :=
  match raw with
  | [] => Ok []
  | v :: raw' =>
    do tx <- decode_one ref (nth_or_first specs first k) (Some v);
    let (t, x) := tx : gtype * gval in
    if assignable (TPtr t) et
    then do l <- list_loop ref et specs first (S k) raw'; Ok (XPtr t x :: l)
    else Panic "reflect.Set: value not assignable"
  end.
Fixpoint listmap_loop (ref : refmap) (kt et : gtype) (specs : list nested) (first : nested) (k : nat)
    (raw : list (string * json)) (acc : list (string * gval)) : result (list (string * gval)) :=
  match raw with
  | [] => Ok acc
  | (key, v) :: raw' =>
    do tx <- decode_one ref (nth_or_first specs first k) (Some v);
    let (t, x) := tx : gtype * gval in
    if assignable (TBasic "string") kt && assignable (TPtr t) et
    then listmap_loop ref kt et specs first (S k) raw' (insert key (XPtr t x) acc)
    else Panic "reflect: value not assignable in SetMapIndex"
  end.
Definition handle_list (ftyp : gtype) (specs : list nested) (ref : refmap) (raw : rawval) : result gval :=
  match specs with
  | [] => Err "missing list struct"
  | first :: _ =>
    match under E ftyp, raw with
    | TMap kt et, RVMap m => do r <- listmap_loop ref kt et specs first 0 m []; Ok (XMap r)
    | TSlice et, RVList l => do r <- list_loop ref et specs first 0 l; Ok (XSlice r)
    | _, _ => Panic "reflect.MakeSlice of non-slice type"
    end
  end.

(* handleSingleStruct, unmarshal.go:201-216: the value to set and its type; ft is the type
   of f, None if f is the zero reflect.Value. *)
Definition handle_single (ft : option gtype) (ns : nested) (ref : refmap) (raw : option json) : result (gtype * gval) :=
  do tx <- decode_one ref ns raw;
  let (t, x) := tx : gtype * gval in
  match option_map (under E) ft with
  | Some (TIface _) | Some (TPtr _) => Ok (TPtr t, XPtr t x)
  | _ => Ok (t, x)
  end.

(* handleMap2Struct, unmarshal.go:221-288, up to f.Set. *)
Fixpoint map2_inner (ref : refmap) (kt et : gtype) (specs : list (string * nested)) (first : nested)
    (key0 : string) (raw : list (string * json)) (acc : list ((string * string) * gval))
  : result (list ((string * string) * gval)) :=
  match raw with
  | [] => Ok acc
  | (key1, v) :: raw' =>
    let next := match lookup key1 specs with Some s => s | None => first end in
    do tx <- decode_one ref next (Some v);
    let (t, x) := tx : gtype * gval in
    if assignable (TArray (TBasic "string")) kt && assignable (TPtr t) et
    then map2_inner ref kt et specs first key0 raw' (insert (key0, key1) (XPtr t x) acc)
    else Panic "reflect: value not assignable in SetMapIndex"
  end.
Fixpoint map2_outer (ref : refmap) (kt et : gtype) (specs : list (string * list (string * nested)))
    (firstms : list (string * nested)) (first : nested)
    (raw : list (string * list (string * json))) (acc : list ((string * string) * gval))
  : result (list ((string * string) * gval)) :=
  match raw with
  | [] => Ok acc
  | (key0, inner) :: raw' =>
    let ms := match lookup key0 specs with Some s => s | None => firstms end in
    do acc' <- map2_inner ref kt et ms first key0 inner acc;
    map2_outer ref kt et specs firstms first raw' acc'
  end.
Definition handle_map2 (ftyp : gtype) (specs : list (string * list (string * nested))) (ref : refmap)
    (raw : list (string * list (string * json))) : result gval :=
  match get_first_from_map specs with
  | None => Err "missing map2 struct"
  | Some firstms =>
    match get_first_from_map firstms with
    | None => Err "missing inner struct for map2"
    | Some first =>
      match under E ftyp with
      | TMap kt et => do m <- map2_outer ref kt et specs firstms first raw []; Ok (XMap2 m)
      | _ => Panic "reflect.MakeMap of non-map type"
      end
    end
  end.

(* The spec of a field with its recursive calls. *)
Inductive nvalue : Type :=
| NSingle (s : nested) | NList (l : list nested) | NMap (m : list (string * nested))
| NMap2 (m : list (string * list (string * nested))).

(* f.Set(v) for a value of type vt: unmarshal.go:83,139,194,196,211,213,286. *)
Definition set_field (f : option (list string * gtype)) (vt : gtype) (v : gval) (cur : gval) : result gval :=
  match f with
  | None => Panic "reflect: call of Set on zero Value"
  | Some (p, ft) => if assignable vt ft then Ok (upd cur p v) else Panic "reflect.Set: value not assignable"
  end.

(* The value the loop of unmarshal.go:72-103 gives to f, with its type; ft is the type of f. *)
Definition field_result (ref : refmap) (specs : list (string * nvalue)) (x : nfield) (raw : rawval)
    (ft : option gtype) : result (gtype * gval) :=
  let ftyp := ftype (nf_field x) in
  match lookup (nf_name x) specs, raw with
  | None, RVPlain v => Ok (ftyp, v)
  | Some (NMap2 m), RVMap2 j => do v <- handle_map2 ftyp m ref j; Ok (ftyp, v)
  | Some (NMap m), RVMap j => do v <- handle_map ftyp m ref j; Ok (ftyp, v)
  | Some (NList l), _ => do v <- handle_list ftyp l ref raw; Ok (ftyp, v)
  | Some (NSingle s), RVRaw j => handle_single ft s ref j
  | _, _ => Panic "not reached"
  end.

(* One round of the loop of unmarshal.go:72-103.  The new target value is returned also on
   failure, in which case it is the old one. *)
Definition field_step (lv : list (list string * list gfield)) (ref : refmap) (specs : list (string * nvalue))
    (x : nfield) (raw : rawval) (cur : gval) : gval * result unit :=
  let f := field_by_name depth (nf_name x) lv in
  match (do tv <- field_result ref specs x raw (option_map snd f); set_field f (fst tv) (snd tv) cur) with
  | Ok cur' => (cur', Ok tt)
  | Err e => (cur, Err e)
  | Panic p => (cur, Panic p)
  end.

Fixpoint fields_step (lv : list (list string * list gfield)) (ref : refmap) (specs : list (string * nvalue))
    (xs : list (nfield * rawval)) (cur : gval) : gval * result unit :=
  match xs with
  | [] => (cur, Ok tt)
  | (x, raw) :: xs' =>
    match field_step lv ref specs x raw cur with
    | (cur', Ok _) => fields_step lv ref specs xs' cur'
    | (cur', r) => (cur', r)
    end
  end.

(* Names occur twice: reflect.StructOf panics (unmarshal.go:60). *)
Fixpoint has_dup (l : list string) : bool :=
  match l with [] => false | x :: l' => existsb (String.eqb x) l' || has_dup l' end.

(* unmarshal.go:36-41 *)
Definition implementations (ref : refmap) : list (string * list (option gtype)) :=
  flat_map (fun kv => match snd kv with RImpls l => [(fst kv, l)] | _ => [] end) ref.
(* unmarshal.go:44-52: the discovered types overlaid with the passed ones. *)
Definition merge (auto : list (string * tid)) (ref : refmap) : refmap :=
  fold_left (fun acc kv => match snd kv with RImpls _ => acc | v => insert (fst kv) v acc end)
    ref (map (fun kn => (fst kn, RPtrTo (TNamed (snd kn)))) auto).

(* JsonUnmarshal, unmarshal.go:43-107, for a spec with fields: t is the type the non-nil
   pointer current points to, cur the value it points to. *)
Definition with_spec (objectMap : list (string * svalue)) (specs : list (string * nvalue))
    (ref : refmap) (t : gtype) (cur : gval) (dat : option json) : gval * result unit :=
  match collect E (implementations ref) depth (TPtr t) [] with
  | None => (cur, Panic "stack overflow")
  | Some auto =>
    let ref' := merge auto ref in
    match under E t with
    | TStruct fs =>
      match loop_fields depth objectMap [] fs with
      | None => (cur, Panic "stack overflow")
      | Some nfs =>
        if has_dup (map nf_name nfs) then (cur, Panic "reflect.StructOf: duplicate field")
        else match raw_struct objectMap nfs dat with
             | Ok raws => fields_step [([], fs)] ref' specs (combine nfs raws) cur
             | Err e => (cur, Err e)
             | Panic p => (cur, Panic p)
             end
      end
    | _ => (cur, Panic "reflect: NumField of non-struct type")
    end
  end.

(* JsonUnmarshal, unmarshal.go:26-108.  Pointers inside the spec are non-nil. *)
Fixpoint json_unmarshal (s : sstruct) (ref : refmap) (t : gtype) (cur : gval) (dat : option json)
  {struct s} : gval * result unit :=
  match s with
  | SStruct _ (Some ((_ :: _) as objectMap)) =>
    with_spec objectMap
      (map (fun kv => (fst kv, nest_value (snd kv))) objectMap) ref t cur dat
  | SStruct _ _ => std t cur dat                                         (* 27-33 *)
  end
with nest_value (v : svalue) : nvalue :=
  match v with
  | VSingle s => NSingle (match s with SStruct c _ => c end, json_unmarshal s)
  | VList l => NList (map (fun s => (match s with SStruct c _ => c end, json_unmarshal s)) l)
  | VMap m => NMap (map (fun ks => (fst ks, (match snd ks with SStruct c _ => c end, json_unmarshal (snd ks)))) m)
  | VMap2 m => NMap2 (map (fun km => (fst km,
      map (fun ks => (fst ks, (match snd ks with SStruct c _ => c end, json_unmarshal (snd ks)))) (snd km))) m)
  end.

(* JsonUnmarshal(dat, current, spec, ref): spec may be nil, unmarshal.go:27-29. *)
Definition json_unmarshal_top (spec : option sstruct) (ref : refmap) (t : gtype) (cur : gval) (dat : option json)
  : gval * result unit :=
  match spec with
  | None => std t cur dat
  | Some s => json_unmarshal s ref t cur dat
  end.

End Det.
