(* Model of utils/common.go: building a spec (Struct/Value messages of
   utils/determined.pb.go:25-30,80-92,191-195,238-242,285-289) from generic Go values. *)

From Verif Require Import Base.

(* ------------------------------------------------- unicode/utf8.ValidString *)

(* utf8.ValidString (Go standard library, called at utils/common.go:115): the byte
   ranges of the acceptance table.  External code, modelled from its documentation; the
   theorem valid_utf8_spec relates it to the definition of UTF-8. *)
Definition inr (lo hi b : Z) : bool := ((lo <=? b) && (b <=? hi))%Z.

Fixpoint valid_utf8 (s : string) : bool :=
  match s with
  | "" => true
  | String c0 s1 =>
    let b0 := byte_of c0 in
    if inr 0 127 b0 then valid_utf8 s1
    else match s1 with
    | "" => false
    | String c1 s2 =>
      let b1 := byte_of c1 in
      if inr 194 223 b0 then inr 128 191 b1 && valid_utf8 s2
      else match s2 with
      | "" => false
      | String c2 s3 =>
        let b2 := byte_of c2 in
        if inr 224 239 b0 then
          inr (if (b0 =? 224)%Z then 160 else 128) (if (b0 =? 237)%Z then 159 else 191) b1
          && inr 128 191 b2 && valid_utf8 s3
        else match s3 with
        | "" => false
        | String c3 s4 =>
          if inr 240 244 b0 then
            inr (if (b0 =? 240)%Z then 144 else 128) (if (b0 =? 244)%Z then 143 else 191) b1
            && inr 128 191 b2 && inr 128 191 (byte_of c3) && valid_utf8 s4
          else false
        end
      end
    end
  end.

(* ---------------------------------------------------------------- messages *)

(* The messages of determined.pb.go.  Struct.Fields is a Go map that may be nil: None is
   the nil map, which NewStruct leaves when it is called without a map (common.go:108-111).
   Pointers in the messages are non-nil, as everything common.go builds is. *)
Inductive sstruct : Type :=
| SStruct (cls : string) (fields : option (list (string * svalue)))
with svalue : Type :=
| VSingle (s : sstruct)
| VList (l : list sstruct)
| VMap (m : list (string * sstruct))
| VMap2 (m : list (string * list (string * sstruct))).

(* The Go values NewValue distinguishes (common.go:58-100); GOther is any other dynamic
   type, GNil the nil interface. *)
Inductive gv : Type :=
| GStr (s : string)                                          (* string *)
| GPair (a b : gv)                                           (* [2]interface{} *)
| GStrs (l : list string)                                    (* []string *)
| GPairs (l : list (gv * gv))                                (* [][2]interface{} *)
| GMapStr (m : list (string * string))                       (* map[string]string *)
| GMapPair (m : list (string * (gv * gv)))                   (* map[string][2]interface{} *)
| GMap2Str (m : list ((string * string) * string))           (* map[[2]string]string *)
| GMap2Pair (m : list ((string * string) * (gv * gv)))       (* map[[2]string][2]interface{} *)
| GStruct (s : sstruct)                                      (* *Struct *)
| GStructs (l : list sstruct)                                (* []*Struct *)
| GMapStruct (m : list (string * sstruct))                   (* map[string]*Struct *)
| GMapMapStruct (m : list (string * list (string * sstruct))) (* map[string]*MapStruct *)
| GMap (m : list (string * gv))                              (* map[string]interface{} *)
| GNil
| GOther.

(* ------------------------------------------------------------------ builders *)

Section Builders.
Variable new_value : gv -> result svalue.

(* The loop of NewStruct, common.go:113-123: list order is the iteration order. *)
Fixpoint fields_loop (m : list (string * gv)) (x : list (string * svalue))
  : result (list (string * svalue)) :=
  match m with
  | [] => Ok x
  | (key, val) :: m' =>
    if valid_utf8 key
    then do y <- new_value val; fields_loop m' (insert key y x)
    else Err "invalid UTF-8 in key"
  end.

(* NewStruct, common.go:107-125.  v is the variadic slice: None when no argument was
   given, Some l for an explicit slice, whose first element is indexed at line 114. *)
Definition new_struct (name : string) (v : option (list (list (string * gv)))) : result sstruct :=
  match v with
  | None => Ok (SStruct name None)
  | Some [] => Panic "index out of range [0] with length 0"
  | Some (m :: _) => do x <- fields_loop m []; Ok (SStruct name (Some x))
  end.

(* newSingleStruct, common.go:127-142. *)
Definition new_single_struct (a b : gv) : result sstruct :=
  match a with
  | GStr name =>
    match b with
    | GNil => new_struct name None
    | GMap hash => new_struct name (Some [hash])
    | _ => Err "the second has to be map[string]interface{}"
    end
  | _ => Err "class name has to be string"
  end.

(* newListStruct, common.go:144-154. *)
Fixpoint new_list_struct (v : list (gv * gv)) : result (list sstruct) :=
  match v with
  | [] => Ok []
  | (a, b) :: v' =>
    do s <- new_single_struct a b;
    do ss <- new_list_struct v';
    Ok (s :: ss)
  end.

(* newMapStruct, common.go:156-166. *)
Fixpoint new_map_struct (v : list (string * (gv * gv))) (x : list (string * sstruct))
  : result (list (string * sstruct)) :=
  match v with
  | [] => Ok x
  | (i, (a, b)) :: v' =>
    do s <- new_single_struct a b;
    new_map_struct v' (insert i s x)
  end.

(* newMap2Struct, common.go:168-179: x[i[0]] = ms replaces the inner map (line 176). *)
Fixpoint new_map2_struct (v : list ((string * string) * (gv * gv)))
    (x : list (string * list (string * sstruct))) : result (list (string * list (string * sstruct))) :=
  match v with
  | [] => Ok x
  | ((i0, i1), (a, b)) :: v' =>
    do s <- new_single_struct a b;
    new_map2_struct v' (insert i0 (insert i1 s []) x)
  end.

End Builders.

(* The conversions of string elements to pairs, common.go:59-61,64-69,72-77,80-85. *)
Definition pair_str (u : string) : gv * gv := (GStr u, GNil).
Definition conv_map {K} (m : list (K * string)) : list (K * (gv * gv)) :=
  map (fun ks => (fst ks, pair_str (snd ks))) m.

(* The pairs built from strings have a nil second element, so newSingleStruct never calls
   NewValue on them (common.go:133-135); the termination checker does not see this, so
   the string cases below pass this placeholder.  shorthand_rec in SpecProofs.v shows that
   the choice of the function is irrelevant. *)
Definition no_value (_ : gv) : result svalue := Panic "not reached".

(* NewValue, common.go:26-102. *)
Fixpoint new_value (v : gv) : result svalue :=
  match v with
  | GStr t => do y <- new_single_struct no_value (GStr t) GNil; Ok (VSingle y)
  | GPair a b => do y <- new_single_struct new_value a b; Ok (VSingle y)
  | GStrs t => do y <- new_list_struct no_value (map pair_str t); Ok (VList y)
  | GPairs t => do y <- new_list_struct new_value t; Ok (VList y)
  | GMapStr t => do y <- new_map_struct no_value (conv_map t) []; Ok (VMap y)
  | GMapPair t => do y <- new_map_struct new_value t []; Ok (VMap y)
  | GMap2Str t => do y <- new_map2_struct no_value (conv_map t) []; Ok (VMap2 y)
  | GMap2Pair t => do y <- new_map2_struct new_value t []; Ok (VMap2 y)
  | GStruct t => Ok (VSingle t)
  | GStructs t => Ok (VList t)
  | GMapStruct t => Ok (VMap t)
  | GMapMapStruct t => Ok (VMap2 t)
  | GMap _ | GNil | GOther => Err "invalid type"
  end.
