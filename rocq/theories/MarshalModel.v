(* Model of the struct half of dethcl/marshal.go: writing a Go struct as HCL text.

   Values are those of StructModel.v; a value of interface type is the dynamic value, where
   HPtr t v is a pointer to a value v of type t, HDyn t v a value v of type t that is
   neither generic data nor a pointer.  As there, the
   tag component of a field is the whole struct tag.

   The fields behind an embedded pointer are at the paths through its name with a star in front;
   the pointer itself is at its name.

   Not modelled (errors that start with "unmodelled"): fractions in fields; tag kinds of gohcl
   other than attr, optional and label; values of types with names inside generic data.  The spaces with which hclwrite aligns the entries of an object are left open.
   Map iteration order is list order.  Tags are read by tag2 also where gohcl reads them
   again (C29).  reflect.StructOf refuses nothing but duplicate names. *)

From Verif Require Import Base GoType DetModel CtyModel HclModel TagModel StructModel.

(* ----- text of values (hclwrite, library) ----- *)

(* escapeQuotedStringLit, on ASCII text: the control characters other than newline, return
   and tab, and those above 126, are written as \u escapes, which are not modelled. *)
Fixpoint escape_lit (s : string) : string :=
  match s with
  | "" => ""
  | String c s' =>
    (if Ascii.eqb c "010" then "\n"
     else if Ascii.eqb c "013" then "\r"
     else if Ascii.eqb c "009" then "\t"
     else if Ascii.eqb c """" then "\"""
     else if Ascii.eqb c "\" then "\\"
     else if mark_char c then
       match s' with String d _ => if Ascii.eqb d "{" then str1 c +++ str1 c else str1 c | "" => str1 c end
     else str1 c) +++ escape_lit s'
  end.
Fixpoint printable (s : string) : bool :=
  match s with
  | "" => true
  | String c s' =>
    (char_in 32 126 c || Ascii.eqb c "010" || Ascii.eqb c "013" || Ascii.eqb c "009") && printable s'
  end.
Definition string_lit (s : string) : result string :=
  if printable s then Ok (quote +++ escape_lit s +++ quote) else Err "unmodelled escape".

(* hclsyntax.ValidIdentifier, on ASCII text *)
Fixpoint ident_rest (s : string) : bool :=
  match s with "" => true | String c s' => ident_char c && ident_rest s' end.
Definition valid_ident (s : string) : bool :=
  match s with "" => false | String c s' => ident_start c && ident_rest s' end.

Fixpoint blank (n : nat) : string := match n with 0 => "" | S n' => " " +++ blank n' end.

Section Marshal.
(* The number of extra spaces before the equals sign of an entry: the keys of the object and
   the key of the entry. *)
Variable align : list string -> string -> nat.

(* hclwrite.TokensForValue; n is the depth of the object. *)
Fixpoint cty_text (n : nat) (c : cval) {struct c} : result string :=
  match c with
  | CNull => Ok "null"
  | CStr s => string_lit s
  | CBool b => Ok (if b then "true" else "false")
  | CNum d => match den d with 0 => Ok (dec_Z (num d)) | _ => Err "unmodelled fraction" end
  | CInf => Err "unmodelled infinity"
  | CTup l =>
    do ts <- (fix go l := match l with
              | [] => Ok []
              | x :: l' => do t <- cty_text n x; do r <- go l'; Ok (t :: r)
              end) l;
    Ok ("[" +++ join ", " ts +++ "]")
  | CObj [] => Ok "{}"
  | CObj m =>
    do ts <- (fix go m := match m with
              | [] => Ok []
              | (k, x) :: m' =>
                do k' <- (if valid_ident k then Ok k else string_lit k);
                do t <- cty_text (S n) x;
                do r <- go m';
                Ok ((k', t) :: r)
              end) m;
    Ok ("{" +++ nl
        +++ fold_right (fun kt r => lead (S n) +++ fst kt +++ blank (align (map fst ts) (fst kt))
                                    +++ " = " +++ snd kt +++ nl +++ r) "" ts
        +++ lead n +++ "}")
  end.

(* strings.ReplaceAll(s, "\n", "\n"+x) *)
Fixpoint replace_nl (x s : string) : string :=
  match s with
  | "" => ""
  | String c s' => if Ascii.eqb c "010" then nl +++ x +++ replace_nl x s' else String c (replace_nl x s')
  end.

(* strings.TrimRight(s, " \t\n\r") and isBlanck (marshal.go:423-430) *)
Definition ws_char (c : ascii) : bool :=
  Ascii.eqb c " " || Ascii.eqb c "009" || Ascii.eqb c "010" || Ascii.eqb c "013".
Fixpoint trim_ws (s : string) : string :=
  match s with
  | "" => ""
  | String c s' => match trim_ws s' with
                   | "" => if ws_char c then "" else str1 c
                   | t => String c t
                   end
  end.
Fixpoint is_blank (s : string) : bool :=
  match s with "" => true | String c s' => ws_char c && is_blank s' end.

Variable E : env.
Variable depth : nat.                                  (* call depth for traversals of types *)
Variable is_zero : gtype -> hval -> bool.              (* reflect.Value.IsZero *)
Variable to_cty : gtype -> hval -> result cval.        (* gocty.ToCtyValue *)
Variable fmt_v : gtype -> hval -> string.              (* fmt's %v of numbers and booleans *)
Variable len0 : hval -> bool.                          (* Len() == 0 of other collections *)
(* The method MarshalHCL of a type, if it has one. *)
Variable mhook : gtype -> option (hval -> result string).

Definition kind_is_coll (t : gtype) : bool :=
  match under E t with TSlice _ | TMap _ _ => true | _ => false end.
(* A pointer to a slice or map: its element type (marshal.go:215-222, 277-280). *)
Definition coll_ptr (t : gtype) : option gtype :=
  match under E t with TPtr u => if kind_is_coll u then Some u else None | _ => None end.
Definition unpoint (v : hval) : hval := match v with HPtr _ w => w | _ => v end.

(* Interface, Map, Pointer, Slice, Struct *)
Definition complex_kind (t : gtype) : bool :=
  match under E t with TIface _ | TMap _ _ | TPtr _ | TSlice _ | TStruct _ => true | _ => false end.

(* Len() == 0 *)
Definition no_elems (v : hval) : bool :=
  match v with
  | HSlice l => match l with [] => true | _ => false end
  | HMap m => match m with [] => true | _ => false end
  | HMap2 m => match m with [] => true | _ => false end
  | HNative (NList []) | HNative (NMap []) | HNative NNilList | HNative NNilMap => true
  | HOpaque _ => len0 v
  | _ => false
  end.

(* ----- getFields, marshal.go:181-262 ----- *)

(* marshalField: the field with its tag, the type and value after 215-222, whether it is
   an outlier, and, for a struct, CanAddr() of the value. *)
Record mfield := MF { m_field : gfield; m_type : gtype; m_value : hval; m_out : bool; m_addr : bool }.

(* The name of an embedded pointer in the paths of the fields behind it. *)
Definition star (name : string) : string := String "*" name.

Definition retag (f : gfield) (kind : string) : gfield :=
  GField (fname f) (fanon f) ("hcl:" +++ quote +++ to_lower (fname f) +++ "," +++ kind +++ quote) (ftype f).

(* marshal.go:223-259, for a field of type t (or of a pointer to it) and value v *)
Definition one_field (f : gfield) (t : gtype) (v : hval) (tag : string) (addr : bool) : list mfield :=
  let out :=
    match under E t with
    | TIface _ | TPtr _ | TStruct _ => Some true
    | TSlice et | TMap _ et => Some (no_elems v || complex_kind et)
    | _ => if is_zero t v then None else Some false
    end in
  match out with
  | None => []
  | Some pass =>
    let f' := if String.eqb tag "" then retag f (if pass then "block" else "optional") else f in
    [MF f' t v pass addr]
  end.

Fixpoint get_fields (fuel : nat) (addr : bool) (o : list string -> hval) (prefix : list string) (fs : list gfield)
  : result (list mfield) :=
  match fuel with
  | 0 => Panic "stack overflow"
  | S fuel' =>
    (fix go (fs : list gfield) : result (list mfield) :=
      match fs with
      | [] => Ok []
      | f :: fs' =>
        let p := (prefix ++ [fname f])%list in
        do here <-
          (if negb (is_exported (fname f)) then Ok []
           else
             do two <- tag2 (ftag f);
             let tag := fst two in
             if tag_skipped tag then Ok []                                          (* 192-194 *)
             else if fanon f && String.eqb tag "" then                              (* 196-213 *)
               match under E (ftype f) with
               | TPtr u =>
                 match under E u with
                 | TStruct gs =>
                   if is_zero (ftype f) (o p) && existsb (fun g => is_exported (fname g)) gs
                   then Panic "reflect: call of Field on zero Value"
                   else get_fields fuel' true o (prefix ++ [star (fname f)])%list gs
                 | _ => Panic "reflect: NumField of non-struct type"
                 end
               | TStruct gs => get_fields fuel' addr o p gs
               | _ => Ok []
               end
             else match coll_ptr (ftype f) with
                  | Some u => if is_zero (ftype f) (o p) then Ok []                 (* 218-221 *)
                              else Ok (one_field f u (unpoint (o p)) tag addr)
                  | None => Ok (one_field f (ftype f) (o p) tag addr)
                  end);
        do rest <- go fs';
        Ok (here ++ rest)%list
      end) fs
  end.

(* ----- getOutlier, marshal.go:271-421 ----- *)

(* marshalOut *)
Record mout := MO { o_name : string; o_labels : list string; o_text : string; o_eq : bool }.

(* The recursive call marshal(current, level, keyname...): type and value of current. *)
Definition writer : Type := gtype -> hval -> nat -> list string -> result string.

(* The switch of shortDirect, encoding.go:29-51: it is on types, so a type with a name of its own
   is not among them. *)
Definition short_types : list string :=
  ["string"; "bool"; "int"; "int8"; "int16"; "int32"; "int64"; "uint"; "uint8"; "uint16"; "uint32"; "uint64";
   "float32"; "float64"].
Definition direct_scalar (t : gtype) (v : hval) : option (result string) :=
  match t with
  | TBasic k =>
    if existsb (String.eqb k) short_types then
      Some (match v with
            | HText s => Ok (quote +++ s +++ quote)
            | HNative n => match scalar_text n with Some r => r | None => Err "unmodelled data" end
            | _ => Err "unmodelled data"
            end)
    else None
  | _ => None
  end.
(* ... on a value of type t that may be an interface *)
Definition short_direct (t : gtype) (v : hval) : option (result string) :=
  match under E t with
  | TIface _ => match v with
                | HDyn u w => direct_scalar u w
                | HNative n => scalar_text n
                | HText s => scalar_text (NStr s)
                | _ => None
                end
  | _ => direct_scalar t v
  end.
(* The assertion of isHashAll, encoding.go:13: the type is map[string]interface{} itself.  Such a
   map that does not hold generic data is not modelled in this place. *)
Definition hash_type (t : gtype) : bool :=
  match t with TMap (TBasic "string") (TIface []) => true | _ => false end.
Definition hash_item (t : gtype) (v : hval) : option (result native) :=
  match under E t, v with
  | TIface _, HNative n => if is_map n then Some (Ok n) else None
  | TIface _, HDyn u w => if hash_type u then Some (match w with HNative n => Ok n | _ => Err "unmodelled data" end)
                          else None
  | _, HNative n => if hash_type t then Some (Ok n) else None
  | _, _ => if hash_type t then Some (Err "unmodelled data") else None
  end.
(* Interface, Ptr, Map, Slice: IsNil may be called. *)
Definition nilable (t : gtype) : bool :=
  match under E t with TIface _ | TPtr _ | TMap _ _ | TSlice _ => true | _ => false end.

(* One entry of a map with elements of type et, encoding.go:134-157 and 89-102; sub is what
   marshalLevel gives for the element. *)
Definition data_entry (et : gtype) (x : hval) (sub : result (option string)) (level : nat) (kn : option string)
  (k : string) : result (list string) :=
  if nilable et && is_zero et x then Ok [k +++ " = null()"]
  else
    let direct := match short_direct et x with Some r => do t <- r; Ok (Some t) | None => sub end in
    if is_nmr kn then do b <- direct; Ok [k +++ " = " +++ bytes b]
    else match hash_item et x with
         | Some r => do n <- r; loop_hash level k 0 kn n
         | None =>
           do b <- direct;
           match short_direct et x, b, kn with
           | None, Some t, Some key =>
             if String.eqb (last_word "" key) t then Ok [] else Ok [k +++ " = " +++ t]
           | _, _, _ => Ok [k +++ " = " +++ bytes b]
           end
         end.

Definition list_of (kn : option string) : list string := match kn with Some k => [k] | None => [] end.

(* marshalLevel (marshal.go:30-43) and encoding (encoding.go:112-191) on a value of type t.  As in
   HclModel.v, None is the nil byte slice; generic data go to the functions there.  Scalars of a
   type with a name, and uintptr, send encoding and shortDirect to each other without end. *)
Fixpoint data_bytes (wr : writer) (t : gtype) (v : hval) (level : nat) (kn : option string) {struct v}
  : result (option string) :=
  if is_zero t v then Ok None else
  match under E t with
  | TPtr _ | TStruct _ => do s <- wr t v level (list_of kn); Ok (Some s)
  | TIface _ =>
    match v with
    | HPtr u _ => do s <- wr (TPtr u) v level (list_of kn); Ok (Some s)
    | HDyn u w => data_bytes wr u w level kn
    | HNative n => marshal_level n level kn
    | HText s => marshal_level (NStr s) level kn
    | _ => Err "unmodelled data"
    end
  | TBasic k =>                                                                  (* 180-185 *)
    match direct_scalar t v with
    | Some r => do s <- r; Ok (Some s)
    | None => if existsb (String.eqb k) ("uintptr" :: short_types) then Panic "stack overflow"
              else Err "data type not supported"
    end
  | TSlice et | TArray et =>                                                     (* 164-177 *)
    match v with
    | HNative n => marshal_level n level kn
    | HSlice l =>
      do arr <- (fix elems (l : list hval) : result (list string) :=
        match l with
        | [] => Ok []
        | x :: l' =>
          do b <- data_bytes wr et x (S level) (Some nmr);
          do rest <- elems l';
          Ok (match b with Some t => t | None => "[]" end :: rest)
        end) l;
      Ok (Some ("[" +++ nl +++ lead (S level) +++ join ("," +++ nl +++ lead (S level)) arr
                +++ nl +++ lead level +++ "]"))
    | _ => Err "unmodelled data"
    end
  | TMap kt et =>                                                                (* 126-163 *)
    match v with
    | HNative n => marshal_level n level kn
    | HMap m =>
      match under E kt with
      | TBasic "string" =>
        do arr <- (fix entries (m : list (string * hval)) : result (list string) :=
          match m with
          | [] => Ok []
          | (k, x) :: m' =>
            do here <- data_entry et x (data_bytes wr et x (S level) None) level kn k;
            do rest <- entries m';
            Ok (here ++ rest)%list
          end) m;
        let inner := lead (S level) +++ join (nl +++ lead (S level)) arr in
        Ok (Some (if Nat.eqb level 0 then nl +++ inner +++ nl +++ lead level
                  else "{" +++ nl +++ inner +++ nl +++ lead level +++ "}"))
      | _ => Err "map key must be string"
      end
    | HMap2 _ => Err "map key must be string"
    | _ => Err "unmodelled data"
    end
  | TNamed _ => Err "unmodelled data"
  end.
(* MarshalLevel on a value of type t, marshal.go:26-43 *)
Definition typed_level (wr : writer) (t : gtype) (v : hval) (level : nat) : result string :=
  do b <- data_bytes wr t v level None; Ok (bytes b).
(* marshal(v.Interface(), ...) of a map element *)
Definition elem_direct (wr : writer) (t : gtype) (v : hval) (level : nat) (kn : list string) : result string :=
  match under E t with
  | TIface _ => if is_zero t v then Ok ""
                else match v with
                     | HPtr u _ => wr (TPtr u) v level kn
                     | HDyn u w => wr u w level kn
                     | _ => Err "unmodelled data"
                     end
  | _ => wr t v level kn
  end.

(* isLoop, from the first element x of type et *)
Definition is_loop (et : gtype) (x : hval) : bool :=
  match under E et with
  | TPtr _ | TStruct _ => true
  | TIface _ => negb (is_zero et x) &&
                match x with
                | HPtr _ _ => true
                | HDyn u _ => match under E u with TPtr _ | TStruct _ => true | _ => false end
                | _ => false
                end
  | _ => false
  end.

Definition unless_blank (name : string) (ls : list string) (eq : bool) (s : string) : list mout :=
  if is_blank s then [] else [MO name ls s eq].

Fixpoint slice_outs (wr : writer) (name : string) (et : gtype) (level : nat) (l : list hval) : result (list mout) :=
  match l with
  | [] => Ok []
  | x :: l' =>
    do s <- typed_level wr et x (S level);
    do r <- slice_outs wr name et level l';
    Ok (unless_blank name [] false s ++ r)%list
  end.
Fixpoint map_outs (wr : writer) (name : string) (et : gtype) (level : nat) (m : list (list string * hval))
  : result (list mout) :=
  match m with
  | [] => Ok []
  | (ls, x) :: m' =>
    do s <- elem_direct wr et x (S level) ls;
    do r <- map_outs wr name et level m';
    Ok (unless_blank name ls false s ++ r)%list
  end.
(* The labels of a key, marshal.go:378-390 *)
Definition key_labels (ab : string * string) : list string :=
  filter (fun s => negb (String.eqb s "")) [fst ab; snd ab].

Definition outliers (wr : writer) (f : gfield) (t : gtype) (v : hval) (addr : bool) (level : nat)
  : result (list mout) :=
  do name <- hcltag (ftag f);
  match under E t with
  | TIface _ => do s <- typed_level wr t v (S level); Ok (unless_blank name [] false s)
  | TPtr _ => do s <- typed_level wr t v (S level); Ok (unless_blank name [] false s)
  | TStruct _ =>                                                                    (* 293-307 *)
    do s <- (if addr then wr (TPtr t) (HPtr t v) (S level) [] else typed_level wr t v (S level));
    Ok (unless_blank name [] false s)
  | TSlice et =>
    let rest := do s <- typed_level wr t v (S level); Ok (unless_blank name [] true s) in
    if is_zero t v then Ok []
    else if no_elems v then Ok [MO name [] "[]" true]
    else match v with
         | HSlice ((x :: _) as l) => if is_loop et x then slice_outs wr name et level l else rest
         | _ => rest
         end
  | TMap kt et =>
    let rest := do s <- typed_level wr t v (S level);
                Ok (unless_blank name [] (match under E et with TIface _ => false | _ => true end) s) in
    if is_zero t v then Ok []
    else if no_elems v then Ok [MO name [] ("{" +++ nl +++ lead (S level) +++ "}") false]
    else match v with
         | HMap (((_, x) :: _) as m) =>
           if is_loop et x then map_outs wr name et level (map (fun kv => ([fst kv], snd kv)) m) else rest
         | HMap2 (((_, x) :: _) as m) =>
           if is_loop et x then map_outs wr name et level (map (fun kv => (key_labels (fst kv), snd kv)) m) else rest
         | _ => rest
         end
  | _ => Ok []
  end.

(* ----- marshal, marshal.go:45-173 ----- *)

(* The loop at 115-139: labels, plain fields that are set, outliers.  reflect refuses to set a
   field of pointer type to the value it points to. *)
Record parts := MP { p_ls : list string; p_attrs : list mfield; p_outs : list mout }.
Fixpoint split_fields (wr : writer) (level : nat) (kn : list string) (mfs : list mfield)
  : result parts :=
  match mfs with
  | [] => Ok (MP [] [] [])
  | mf :: mfs' =>
    if m_out mf then
      do os <- outliers wr (m_field mf) (m_type mf) (m_value mf) (m_addr mf) level;
      do p <- split_fields wr level kn mfs';
      Ok (MP (p_ls p) (p_attrs p) (os ++ p_outs p))
    else
      do two <- tag2 (ftag (m_field mf));
      if String.eqb (snd two) "label" then
        match m_value mf with
        | HText s =>
          do p <- split_fields wr level kn mfs';
          let same := match kn with k :: _ => String.eqb k s | [] => false end in
          Ok (MP (if same then p_ls p else s :: p_ls p) (p_attrs p) (p_outs p))
        | _ => Panic "interface conversion: interface {} is not string"
        end
      else match coll_ptr (ftype (m_field mf)) with
           | Some _ => Panic "reflect.Set: value of slice or map type is not assignable to pointer type"
           | None => do p <- split_fields wr level kn mfs'; Ok (MP (p_ls p) (mf :: p_attrs p) (p_outs p))
           end
  end.

(* gohcl.EncodeIntoBody (library): one line per name, that of the last field with the name. *)
Fixpoint attr_lines (mfs : list mfield) : result string :=
  match mfs with
  | [] => Ok ""
  | mf :: mfs' =>
    do two <- tag2 (ftag (m_field mf));
    if existsb (String.eqb (snd two)) ["block"; "body"; "remain"] then Err "unmodelled tag kind"
    else if negb (known_kind (snd two)) then Panic "invalid hcl field tag kind"
    else
      do here <-
        (if tag_in (map m_field mfs') (fst two) then Ok ""
         else match to_cty (m_type mf) (m_value mf) with
              | Ok c => do t <- cty_text 0 c; Ok (fst two +++ " = " +++ t +++ nl)
              | _ => Panic "gocty error in EncodeIntoBody"
              end);
      do r <- attr_lines mfs';
      Ok (here +++ r)
  end.

Definition out_line (x : mout) : string :=
  o_name x +++ " " +++ (if o_eq x then "= " else "")
  +++ (match o_labels x with [] => "" | ls => quote +++ join (quote +++ " " +++ quote) ls +++ quote +++ " " end)
  +++ o_text x.

(* marshal.go:145-172 *)
Definition assemble_text (level : nat) (labels : list string) (attrs : string) (outs : list mout) : string :=
  let leading := lead (S level) in
  let str := trim_ws (leading +++ replace_nl leading attrs +++ join (nl +++ leading) (map out_line outs)) in
  if Nat.eqb level 0 then str
  else (match labels with [] => "" | _ => quote +++ join (quote +++ " " +++ quote) labels +++ quote +++ " " end)
       +++ "{" +++ nl +++ str +++ nl +++ lead level +++ "}".

(* Pointers to these are written with %v, marshal.go:80-93. *)
Definition number_kind (k : string) : bool :=
  existsb (String.eqb k)
    ["bool"; "int"; "int8"; "int16"; "int32"; "int64"; "uint"; "uint8"; "uint16"; "uint32"; "uint64";
     "float32"; "float64"; "complex64"; "complex128"].

(* marshal.go:52-71 *)
Definition hook_text (level : nat) (s : string) : string :=
  let str := if Nat.eqb level 0 then s else if is_blank s then nl else nl +++ s +++ nl in
  let str := replace_nl (lead level) str in
  if Nat.eqb level 0 then str else "{" +++ lead (S level) +++ str +++ "}".

Definition plain_fields (mfs : list mfield) : list gfield :=
  map m_field (filter (fun mf => negb (m_out mf)) mfs).

Fixpoint marshal_struct (fuel : nat) (t : gtype) (v : hval) (level : nat) (kn : list string) : result string :=
  match fuel with
  | 0 => Panic "stack overflow"
  | S fuel' =>
    match mhook t with
    | Some h => do s <- h v; Ok (hook_text level s)
    | None =>
      (* the type and value behind a pointer, is it addressable, is it there *)
      let '(t', w, addr) := match under E t with TPtr u => (u, unpoint v, true) | _ => (t, v, false) end in
      let nil := match under E t with TPtr _ => is_zero t v | _ => false end in
      match under E t' with
      | TBasic k =>                                                                 (* 81-93 *)
        if String.eqb k "string" then
          if nil then Ok "" else match w with HText s => Ok (" = " +++ s) | _ => Err "unmodelled data" end
        else if number_kind k then if nil then Ok "" else Ok ("= " +++ fmt_v t' w)
        else Panic "reflect: NumField of non-struct type"
      | TPtr u =>                                                                   (* 94-95 *)
        if nil || is_zero t' w then Panic "reflect: call of Interface on zero Value"
        else marshal_struct fuel' u (unpoint w) level kn
      | TStruct fs =>
        if nil && existsb (fun f => is_exported (fname f)) fs then Panic "reflect: call of Field on zero Value"
        else
          do mfs <- get_fields depth addr (hget w) [] fs;
          if has_dup (map fname (plain_fields mfs)) then Panic "reflect.StructOf: duplicate field"
          else
            do p <- split_fields (marshal_struct fuel') level kn mfs;
            do attrs <- attr_lines (p_attrs p);
            Ok (assemble_text level (p_ls p) attrs (p_outs p))
      | _ => Panic "reflect: NumField of non-struct type"
      end
    end
  end.

(* Marshal, marshal.go:19-43, of a value whose dynamic type t is a struct or a pointer *)
Definition marshal_value (fuel : nat) (t : gtype) (v : hval) : result string :=
  typed_level (marshal_struct fuel) t v 0.
End Marshal.
