(* Model of dethcl/unmarshal.go: decoding HCL text into a Go struct, with specs for its
   interface fields.

   Simplifications.  The HCL syntax is that of HclModel.v; expressions have no variables, so
   the tree of variables (unmarshal.go:126,129-131,249,...) is left out; see VarModel.v.  The target is a
   pointer to a struct (68-97 are modelled in HclModel.v).  Embedded pointers are not
   followed by FieldByName.  Spec nodes of nested structs are not changed by one block for the
   next one (see auto_value in StructBlock.v).
   An array key of a map is taken to have length 2.  Map iteration order is list order.  Here
   the tag component of a field is the whole struct tag. *)

From Verif Require Import Base GoType SpecModel CollectModel DetModel CtyModel HclModel TagModel.

(* ----- values ----- *)

(* Go values, as in DetModel.v, with text and generic HCL data. *)
Inductive hval : Type :=
| HOpaque (s : string)
| HText (s : string)                       (* string *)
| HNative (n : native)                     (* map[string]interface{} or []interface{} *)
| HStruct (o : list string -> hval)        (* by field path *)
| HPtr (t : gtype) (v : hval)
| HDyn (t : gtype) (v : hval)              (* a value of type t in an interface *)
| HSlice (l : list hval)
| HMap (m : list (string * hval))
| HMap2 (m : list ((string * string) * hval)).

Definition hget (v : hval) (p : list string) : hval :=
  match v with HStruct o => o p | _ => HOpaque "invalid" end.
Definition hset (v : hval) (p : list string) (x : hval) : hval :=
  HStruct (fun q => if path_eqb q p then x else hget v q).

(* One value of the ref map: a pointer to a struct of type t and value v, nil, or something
   clone cannot handle. *)
Inductive robject : Type := RObj (t : gtype) (v : hval) | RNil | RBad.
Definition hrefmap := list (string * robject).

(* ----- positions in the text (hclsyntax, library) ----- *)

(* A token with the byte positions of its start and end. *)
Definition ptoken : Type := token * (nat * nat).

(* The positions of the tokens a character at position pos emits: first the pending one,
   which started at start, then the character itself. *)
Definition pending (st : lexst) : bool :=
  match st with LIdent _ | LNum _ | LPoint _ | LDec _ _ | LExp _ _ | LSign _ _ _ | LPow _ _ _ _ | LEq => true | _ => false end.
Definition in_text (st : lexst) : bool :=
  match st with LStr _ | LEsc _ | LMark _ _ | LSlash | LLine | LBlock | LStar => true | _ => false end.
Definition place (st : lexst) (start pos : nat) (ts : list token) : list ptoken :=
  match ts with
  | [] => []
  | t :: ts' =>
    if pending st then (t, (start, pos)) :: map (fun t => (t, (pos, S pos))) ts'
    else if in_text st then (t, (start, S pos)) :: map (fun t => (t, (pos, S pos))) ts'
    else map (fun t => (t, (pos, S pos))) ts
  end.
(* Where the pending token started. *)
Definition restart (st : lexst) (start pos : nat) (ts : list token) : nat :=
  match st, ts with
  | LNone, _ => pos
  | _, [] => start
  | _, _ => pos
  end.

(* scan, with positions *)
Fixpoint pscan (st : lexst) (start pos : nat) (s : string) : result (list ptoken) :=
  match s with
  | "" =>
    match st with
    | LNone => Ok []
    | LIdent acc => Ok [(TIdent acc, (start, pos))]
    | LNum z => Ok [(TNum z, (start, pos))]
    | LPoint _ | LExp _ _ | LSign _ _ _ => Err "unmodelled character"
    | LDec m k => Ok [(TDec m k, (start, pos))]
    | LPow m k neg x => Ok [(with_exp m k neg x, (start, pos))]
    | LEq => Ok [(TEq, (start, pos))]
    | LLine => Ok []
    | LSlash | LBlock | LStar => Err "syntax: unfinished comment"
    | _ => Err "syntax: unterminated string"
    end
  | String c s' =>
    do p <- step st c;
    do ts <- pscan (snd p) (restart st start pos (fst p)) (S pos) s';
    Ok (place st start pos (fst p) ++ ts)%list
  end.

(* An item of the body: an attribute with EqualsRange.End.Byte and SrcRange.End.Byte, a block
   with OpenBraceRange.End.Byte and CloseBraceRange.Start.Byte and its parsed body. *)
Inductive pitem :=
| PAttr (k : string) (e : expr) (eq_end src_end : nat)
| PBlock (type : string) (labels : list string) (open_end close_start : nat) (body : list item).

Definition tok_of (p : ptoken) : token := fst p.
Definition last_end (d : nat) (l : list ptoken) : nat := last (map (fun p => snd (snd p)) l) d.
Definition last_start (d : nat) (l : list ptoken) : nat := last (map (fun p => fst (snd p)) l) d.

(* The body of the file with positions; the expressions, labels and nested bodies are parsed
   as in HclModel.v and the number of tokens they use gives the positions. *)
Fixpoint pitems (n : nat) (ts : list ptoken) {struct n} : result (list pitem) :=
  match n with
  | 0 => Err "fuel"
  | S n' =>
    match ts with
    | [] => Ok []
    | (TNl, _) :: r => pitems n' r
    | (TIdent k, _) :: (TEq, (_, eq_end)) :: r =>
      do p <- pexpr n' (map tok_of r);
      let used := List.length r - List.length (snd p) in
      let it := PAttr k (fst p) eq_end (last_end 0 (firstn used r)) in
      match skipn used r with
      | (TNl, _) :: r1 => do q <- pitems n' r1; Ok (it :: q)
      | [] => Ok [it]
      | _ => Err "syntax: missing newline after argument"
      end
    | (TIdent k, _) :: r =>
      do p <- plabels (map tok_of r);
      let used := List.length r - List.length (snd p) in
      let open_end := last_end 0 (firstn used r) in
      let r0 := skipn used r in
      do b <- block_body (pbody n' true) n' (snd p);
      let used' := List.length r0 - List.length (snd b) in
      let it := PBlock k (fst p) open_end (last_start 0 (firstn used' r0)) (fst b) in
      match skipn used' r0 with
      | (TNl, _) :: r1 => do q <- pitems n' r1; Ok (it :: q)
      | [] => Ok [it]
      | _ => Err "syntax: missing newline after block definition"
      end
    | _ => Err "syntax: item expected"
    end
  end.

Definition pitem_names (its : list pitem) : list string :=
  flat_map (fun i => match i with PAttr k _ _ _ => [k] | _ => [] end) its.

(* hclsyntax.ParseConfig, unmarshal.go:110-114 *)
Definition parse_file (s : string) : result (list pitem) :=
  do ts <- pscan LNone 0 0 s;
  do its <- pitems (2 * List.length ts + 2) ts;
  if has_dup (pitem_names its) then Err "syntax: attribute redefined" else Ok its.

(* file.Bytes[a:b] *)
Definition slice (s : string) (a b : nat) : string := substring a (b - a) s.

(* ----- attributes ----- *)

(* ExpressionToCty, utils/util.go:104-166.  null() gives the nil value, which is null. *)
Fixpoint expr_cty (e : expr) : result cval :=
  match e with
  | ENum z => Ok (CNum (mkD z 0))
  | EDec m k => Ok (CNum (decimal m k))
  | EStr s => Ok (CStr s)
  | EBool b => Ok (CBool b)
  | ENull => Ok CNull
  | ECall f => if String.eqb f "null" then Ok CNull else Err "unmodelled call"
  | EVar _ => Err "unmodelled variable"
  | ETuple l =>
    do u <- (fix go l := match l with
             | [] => Ok []
             | e :: l' => do x <- expr_cty e; do r <- go l'; Ok (x :: r)
             end) l;
    Ok (CTup u)
  | EObj m =>
    do u <- (fix go m := match m with
             | [] => Ok []
             | (k, e) :: m' => do x <- expr_cty e; do r <- go m'; Ok ((k, x) :: r)
             end) m;
    Ok (CObj (fold_left (fun h kv => insert (fst kv) (snd kv) h) u []))
  end.

Definition is_null (v : cval) : bool := match v with CNull => true | _ => false end.

(* An attribute with its value: name, value, EqualsRange.End.Byte, SrcRange.End.Byte. *)
Record hattr := mkAttr { a_name : string; a_value : cval; a_eq : nat; a_end : nat }.
Record hblock := mkBlock { b_type : string; b_labels : list string; b_open : nat; b_close : nat }.

Fixpoint file_attrs (its : list pitem) : result (list hattr) :=
  match its with
  | [] => Ok []
  | PAttr k e q s :: its' => do v <- expr_cty e; do r <- file_attrs its'; Ok (mkAttr k v q s :: r)
  | PBlock _ _ _ _ _ :: its' => file_attrs its'
  end.
Definition file_blocks (its : list pitem) : list hblock :=
  flat_map (fun i => match i with PBlock t ls o c _ => [mkBlock t ls o c] | _ => [] end) its.

(* grep, unmarshal.go:551-561 *)
Definition grep (l : list string) (k : string) : bool := existsb (String.eqb k) l.

Section Struct.
Variable E : env.
Variable depth : nat.                                  (* call depth for traversals of types *)
Variable type_string : gtype -> string.                (* reflect.Type.String *)
Variable zero : gtype -> hval.                         (* reflect.Zero *)
Variable assignable : gtype -> gtype -> bool.          (* reflect's AssignableTo *)
(* gohcl and gocty: the value of an attribute as a Go value of a type. *)
Variable decode_attr : gtype -> cval -> result hval.
(* The method UnmarshalHCL of a type, if it has one: text, labels, old value. *)
Variable hook : gtype -> option (string -> list string -> hval -> hval * result unit).

(* ----- the four kinds of fields ----- *)

Record lists := mkLists
  { l_labels : list gfield; l_new : list gfield; l_ori : list gfield; l_dec : list gfield;
    l_map : list (string * svalue); l_ref : hrefmap }.
Definition no_fields (m : list (string * svalue)) (ref : hrefmap) := mkLists [] [] [] [] m ref.
Definition join_lists (a b : lists) : lists :=
  mkLists (l_labels a ++ l_labels b) (l_new a ++ l_new b) (l_ori a ++ l_ori b) (l_dec a ++ l_dec b)
          (l_map b) (l_ref b).

Definition elem_ptr (t : gtype) : gtype := match under E t with TPtr u => u | _ => t end.

(* What one field adds: unmarshal.go:598-672, the switch after the tag tests. *)
Inductive fclass := FLabel | FNew | FOri | FDec | FSkip.
Definition one (c : fclass) (f : gfield) (m : list (string * svalue)) (ref : hrefmap) : lists :=
  match c with
  | FLabel => mkLists [f] [] [] [] m ref
  | FNew => mkLists [] [f] [] [] m ref
  | FOri => mkLists [] [] [f] [] m ref
  | FDec => mkLists [] [] [] [f] m ref
  | FSkip => no_fields m ref
  end.

(* Elements of slices and maps, unmarshal.go:625-639,648-662: the type that is registered
   under the element type's name, or the class of the field. *)
Inductive eclass := Registered (u : gtype) | Other (c : fclass).
Definition elem_class (et : gtype) : eclass :=
  match under E et with
  | TStruct _ => Registered et
  | TPtr u => Registered u
  | TIface _ => Other FDec
  | _ => Other FNew
  end.
(* utils.NewValue(s), NewValue([]string{s}) and NewValue(map[[2]string]string{{"", ""}: s}) *)
Definition plain_struct (s : string) : sstruct := SStruct s None.

(* Kind() == reflect.Array, for an array of two strings *)
Definition pair_key (kt : gtype) : bool :=
  match under E kt with TArray _ => true | _ => false end.

Definition tagged_field (f : gfield) (m : list (string * svalue)) (ref : hrefmap) : lists :=
  let t := elem_ptr (ftype f) in
  match under E t with
  | TStruct _ =>                                                                    (* 614-622 *)
    let s := type_string t in
    one FOri f (insert (fname f) (VSingle (plain_struct s)) m) (insert s (RObj t (zero t)) ref)
  | TMap kt et =>
    let s := type_string et in
    match elem_class et with
    | Registered u =>
      let v := if pair_key kt then VMap2 [("", [("", plain_struct s)])] else VList [plain_struct s] in
      one FOri f (insert (fname f) v m) (insert s (RObj u (zero u)) ref)
    | Other c => one c f m ref
    end
  | TSlice et =>
    let s := type_string et in
    match elem_class et with
    | Registered u => one FOri f (insert (fname f) (VList [plain_struct s]) m) (insert s (RObj u (zero u)) ref)
    | Other c => one c f m ref
    end
  | _ => one FNew f m ref                                                           (* 670-672 *)
  end.

(* loopFields, unmarshal.go:566-675.  Without call depth left the recursion into an untagged
   struct overflows the stack. *)
Fixpoint loop_fields (fuel : nat) (nulls : list string) (fs : list gfield)
    (m : list (string * svalue)) (ref : hrefmap) : result lists :=
  match fuel with
  | 0 => Panic "stack overflow"
  | S fuel' =>
    (fix go (fs : list gfield) (m : list (string * svalue)) (ref : hrefmap) : result lists :=
      match fs with
      | [] => Ok (no_fields m ref)
      | f :: fs' =>
        do here <-
          (if negb (is_exported (fname f)) then Ok (no_fields m ref)                (* 578-580 *)
           else
             do two <- tag2 (ftag f);
             let (tag, what) := two : string * string in
             if grep nulls tag then Ok (no_fields m ref)                            (* 582-584 *)
             else if String.eqb (to_lower what) "label" then Ok (one FLabel f m ref)
             else if tag_skipped tag then Ok (no_fields m ref)                      (* 590-592 *)
             else match lookup (fname f) m with
             | Some _ => Ok (one FOri f m ref)                                      (* 593-596 *)
             | None =>
               if String.eqb tag "" then                                            (* 598-612 *)
                 match under E (elem_ptr (ftype f)) with
                 | TStruct gs => loop_fields fuel' nulls gs m ref
                 | _ => Ok (no_fields m ref)
                 end
               else Ok (tagged_field f m ref)
             end);
        do rest <- go fs' (l_map here) (l_ref here);
        Ok (join_lists here rest)
      end) fs m ref
  end.

(* The tag of a field; tag2 has succeeded on every field of the lists. *)
Definition tag_of (f : gfield) : string := match tag2 (ftag f) with Ok (t, _) => t | _ => "" end.
Definition kind_of_tag (f : gfield) : string := match tag2 (ftag f) with Ok (_, k) => k | _ => "" end.
(* getTagref, unmarshal.go:542-549 *)
Definition tag_in (fs : list gfield) (k : string) : bool := existsb (fun f => String.eqb (tag_of f) k) fs.

(* ----- splitting an attribute into blocks ----- *)

(* regexp.FindAllStringIndex of "(?s){[^}]+}" in s at position pos: start and end of each
   match.  A match starts at an opening brace whose next character is not a closing brace and
   ends with the next closing brace; if there is none there are no more matches. *)
Fixpoint find_close (s : string) (pos : nat) : option nat :=
  match s with
  | "" => None
  | String c s' => if Ascii.eqb c "}" then Some (S pos) else find_close s' (S pos)
  end.
Fixpoint find_all (skip : nat) (s : string) (pos : nat) : list (nat * nat) :=
  match s with
  | "" => []
  | String c s' =>
    match skip with
    | S k => find_all k s' (S pos)
    | 0 =>
      if Ascii.eqb c "{" then
        match s' with
        | "" => []
        | String d _ =>
          if Ascii.eqb d "}" then find_all 0 s' (S pos)
          else match find_close s' (S pos) with
               | Some e => (pos, e) :: find_all (e - S pos) s' (S pos)
               | None => []
               end
        end
      else find_all 0 s' (S pos)
    end
  end.

(* unmarshal.go:472-496: the blocks made from an attribute. *)
Definition can_iterate (v : cval) : bool := match v with CObj _ | CTup _ => true | _ => false end.
Definition attr_blocks (dat : string) (a : hattr) : result (list hblock) :=
  if negb (can_iterate (a_value a)) then Err "unknown expression type"
  else
    let start := S (a_eq a) in
    if Nat.ltb (a_end a) start then Panic "slice bounds out of range"
    else Ok (map (fun se => mkBlock (a_name a) [] (start + fst se + 1) (start + snd se - 1))
              (find_all 0 (slice dat start (a_end a)) 0)).

(* ----- refreshBody, unmarshal.go:442-530 ----- *)

Record body_parts := mkParts
  { p_labels : list (string * cval);          (* labelExprs *)
    p_plain : list (string * cval);           (* body.Attributes *)
    p_decattrs : list (string * hattr);
    p_decblock : list hblock;                 (* in source order, of all tags *)
    p_ori : list hblock;                      (* likewise *)
    p_rest : list hblock }.                   (* body.Blocks *)

Fixpoint split_attrs (dat : string) (nulls : list string) (L : lists) (attrs : list hattr) : result body_parts :=
  match attrs with
  | [] => Ok (mkParts [] [] [] [] [] [])
  | a :: attrs' =>
    do p <- split_attrs dat nulls L attrs';
    let k := a_name a in
    if grep nulls k then Ok p
    else if tag_in (l_dec L) k then
      Ok (mkParts (p_labels p) (p_plain p) ((k, a) :: p_decattrs p) [] (p_ori p) [])
    else if tag_in (l_labels L) k then
      Ok (mkParts ((k, a_value a) :: p_labels p) (p_plain p) (p_decattrs p) [] (p_ori p) [])
    else if tag_in (l_ori L) k then
      do bs <- attr_blocks dat a;
      Ok (mkParts (p_labels p) (p_plain p) (p_decattrs p) [] (bs ++ p_ori p) [])
    else Ok (mkParts (p_labels p) ((k, a_value a) :: p_plain p) (p_decattrs p) [] (p_ori p) [])
  end.
Definition split_body (dat : string) (nulls : list string) (L : lists) (attrs : list hattr) (bs : list hblock)
  : result body_parts :=
  do p <- split_attrs dat nulls L attrs;
  let ori := filter (fun b => tag_in (l_ori L) (b_type b)) bs in
  let others := filter (fun b => negb (tag_in (l_ori L) (b_type b))) bs in
  Ok (mkParts (p_labels p) (p_plain p) (p_decattrs p)
        (filter (fun b => tag_in (l_dec L) (b_type b)) others)
        (p_ori p ++ ori)
        (filter (fun b => negb (tag_in (l_dec L) (b_type b))) others)).
Definition blocks_of (tag : string) (bs : list hblock) : list hblock :=
  filter (fun b => String.eqb (b_type b) tag) bs.

(* gohcl.DecodeBody into the struct of the plain fields, unmarshal.go:520-527 (library).
   Modelled: the kinds attr and optional. *)
Definition known_kind (k : string) : bool :=
  String.eqb k "" || String.eqb k "attr" || String.eqb k "optional".
Definition required (f : gfield) : bool := negb (String.eqb (kind_of_tag f) "optional").
Fixpoint gohcl_values (fs : list gfield) (attrs : list (string * cval)) : result (list hval) :=
  match fs with
  | [] => Ok []
  | f :: fs' =>
    do x <- (if tag_in fs' (tag_of f) then Ok (zero (ftype f))    (* a later field has the name *)
             else match lookup (tag_of f) attrs with
                  | Some v => decode_attr (ftype f) v
                  | None => if required f then Err "Missing required argument" else Ok (zero (ftype f))
                  end);
    do r <- gohcl_values fs' attrs;
    Ok (x :: r)
  end.
Definition gohcl_decode (fs : list gfield) (attrs : list (string * cval)) (rest : list hblock) : result (list hval) :=
  if has_dup (map fname fs) then Panic "reflect.StructOf: duplicate field"
  else if negb (forallb (fun f => known_kind (kind_of_tag f)) fs) then Err "unmodelled tag kind"
  else if existsb (fun kv => negb (tag_in fs (fst kv))) attrs then Err "Unsupported argument"
  else match rest with
       | [] => gohcl_values fs attrs
       | _ => Err "Unsupported block type"
       end.

(* getBlockBytes, unmarshal.go:532-540 *)
Definition block_bytes (dat : string) (b : hblock) : string := slice dat (b_open b) (b_close b).

(* ----- assignments ----- *)

Definition field_levels (t : gtype) : list (list string * list gfield) :=
  match under E t with TStruct fs => [([], fs)] | _ => [] end.
Definition find_field (t : gtype) (name : string) : option (list string * gtype) :=
  field_by_name E depth name (field_levels t).

(* f := FieldByName(name); f.Set(x) for x of type xt *)
Definition set_by_name (t : gtype) (v : hval) (name : string) (xt : gtype) (x : hval) : result hval :=
  match find_field t name with
  | None => Panic "reflect: call of Set on zero Value"
  | Some (p, ft) => if assignable xt ft then Ok (hset v p x) else Panic "reflect.Set: value not assignable"
  end.

(* A sequence of assignments: each yields, from the current target and ref, a value to set or
   nothing.  On failure the assignments before it have been made. *)
Definition action : Type := string * (hval -> hrefmap -> hrefmap * result (option (gtype * hval))).
Fixpoint run (t : gtype) (acts : list action) (v : hval) (ref : hrefmap) : hval * hrefmap * result unit :=
  match acts with
  | [] => (v, ref, Ok tt)
  | (name, f) :: acts' =>
    match f v ref with
    | (ref', Ok None) => run t acts' v ref'
    | (ref', Ok (Some (xt, x))) =>
      match set_by_name t v name xt x with
      | Ok v' => run t acts' v' ref'
      | Err e => (v, ref', Err e)
      | Panic p => (v, ref', Panic p)
      end
    | (ref', Err e) => (v, ref', Err e)
    | (ref', Panic p) => (v, ref', Panic p)
    end
  end.
Definition pure (r : result (option (gtype * hval))) : hval -> hrefmap -> hrefmap * result (option (gtype * hval)) :=
  fun _ ref => (ref, r).

Definition string_type : gtype := TBasic "string".

(* unmarshal.go:146-162: labels written as attributes.  AsString panics on other values. *)
Definition label_attr_actions (p : body_parts) (fs : list gfield) : list action :=
  map (fun f => (fname f, pure
    match lookup (tag_of f) (p_labels p) with
    | None => Ok None
    | Some (CStr s) => Ok (Some (string_type, HText s))
    | Some _ => Panic "not a string"
    end)) fs.

(* f.String() of the field called name; for other kinds it is a text like "<int Value>". *)
Definition text_of (v : hval) : string := match v with HText s => s | _ => "<Value>" end.
Definition field_text (t : gtype) (v : hval) (name : string) : string :=
  match find_field t name with Some (p, _) => text_of (hget v p) | None => "<invalid Value>" end.

(* unmarshal.go:164-174: labels passed from the level above. *)
Definition label_arg_actions (t : gtype) (labels : list string) (fs : list gfield) : list action :=
  if Nat.eqb (List.length labels) (List.length fs) then
    map (fun fl => (fname (fst fl), fun v ref => (ref,
      if String.eqb (field_text t v (fname (fst fl))) "" then Ok (Some (string_type, HText (snd fl))) else Ok None)))
      (combine fs labels)
  else [].

(* unmarshal.go:176-184 *)
Definition plain_actions (p : body_parts) (fs : list gfield) (raw : list hval) : list action :=
  map (fun fx => (fname (fst fx), pure
    match lookup (tag_of (fst fx)) (p_plain p) with
    | Some _ => Ok (Some (ftype (fst fx), snd fx))
    | None => Ok None
    end)) (combine fs raw).

(* unmarshal.go:186-217: decodeSlice and decodeMap return []interface{} and map[string]interface{}. *)
Definition any : gtype := TIface [].
Definition is_slice (t : gtype) : bool := match under E t with TSlice _ => true | _ => false end.
Definition decode_generic (t : gtype) (s : string) : result (option (gtype * hval)) :=
  if is_slice t then do x <- decode_slice s; Ok (Some (TSlice any, HNative x))
  else do x <- decode_map s; Ok (Some (TMap string_type any, HNative x)).
Definition generic_actions (dat : string) (p : body_parts) (fs : list gfield) : list action :=
  map (fun f => (fname f, pure
    match lookup (tag_of f) (p_decattrs p) with
    | Some a => decode_generic (ftype f) (slice dat (a_eq a) (a_end a))
    | None =>
      match blocks_of (tag_of f) (p_decblock p) with
      | b :: _ => decode_generic (ftype f) (block_bytes dat b)
      | [] => Ok None
      end
    end)) fs.

(* ----- blocks ----- *)

(* clone(ref[class]), with the error for a class that is not there: unmarshal.go:265-269.
   clone copies the exported fields (util.go:11-23); unexported ones are zero. *)
Definition exported_path (p : list string) : bool :=
  match p with [] => true | n :: _ => is_exported n end.
Definition clone_value (t : gtype) (v : hval) : hval :=
  HStruct (fun p => if exported_path p then hget v p else hget (zero t) p).
Definition class_object (ref : hrefmap) (cls : string) : result (gtype * hval) :=
  match lookup cls ref with
  | None | Some RNil => Err "ref not found"
  | Some (RObj t v) => match under E t with
                       | TStruct _ => Ok (t, clone_value t v)
                       | _ => Panic "reflect: call of NumField on a value that is not a struct"
                       end
  | Some RBad => Panic "reflect: Elem of invalid type"
  end.

Definition class_name (s : sstruct) : string := match s with SStruct c _ => c end.
Definition spec_fields (s : sstruct) : list (string * svalue) :=
  match s with SStruct _ (Some m) => m | SStruct _ None => [] end.

(* The recursive call for a nested struct: spec, ref, labels, type and value of the target,
   text. *)
Definition decoder : Type :=
  sstruct -> hrefmap -> list string -> gtype -> hval -> string -> hval * hrefmap * result unit.

(* plusUnmarshalSpecTree, unmarshal.go:434-440, on the clone of the class; the blocks of map
   specs may have limit labels (274-276,334-336). *)
Definition too_many_labels (limit : option nat) (b : hblock) : bool :=
  match limit with Some n => Nat.ltb n (List.length (b_labels b)) | None => false end.
Definition decode_block (dec : decoder) (dat : string) (limit : option nat) (s : sstruct) (ref : hrefmap)
    (b : hblock) : hrefmap * result (gtype * hval) :=
  match class_object ref (class_name s) with
  | Ok (t, v) =>
    if too_many_labels limit b then (ref, Err "too many labels") else
    match hook t with
    | Some h => match h (block_bytes dat b) (b_labels b) v with
                | (x, Ok _) => (ref, Ok (t, x))
                | (_, Err e) => (ref, Err e)
                | (_, Panic p) => (ref, Panic p)
                end
    | None => match dec s ref (b_labels b) t v (block_bytes dat b) with
              | (x, ref', Ok _) => (ref', Ok (t, x))
              | (_, ref', Err e) => (ref', Err e)
              | (_, ref', Panic p) => (ref', Panic p)
              end
    end
  | Err e => (ref, Err e)
  | Panic p => (ref, Panic p)
  end.

(* Is the element stored as a pointer: knd == Interface || knd == Ptr *)
Definition by_pointer (t : gtype) : bool :=
  match under E t with TIface _ | TPtr _ => true | _ => false end.
Definition stored (et t : gtype) (v : hval) : gtype * hval :=
  if by_pointer et then (TPtr t, HPtr t v) else (t, v).

(* getLabels, unmarshal.go:677-698: the last label field but the first gives the second. *)
Definition own_labels (t : gtype) (v : hval) : string * string :=
  match under E t with
  | TStruct fs =>
    match filter (fun f => String.eqb (to_lower (kind_of_tag f)) "label") fs with
    | [] => ("", "")
    | f :: fs' => (text_of (hget v [fname f]),
                   match rev fs' with g :: _ => text_of (hget v [fname g]) | [] => "" end)
    end
  | _ => ("", "")
  end.

(* A loop over blocks that decodes each and inserts it into a map, or fails. *)
Definition fails {A} (ref : hrefmap) (r : result A) : hrefmap * result A := (ref, r).

Definition label0 (b : hblock) : string := match b_labels b with l :: _ => l | [] => "" end.
Definition label1 (b : hblock) : string := match b_labels b with _ :: l :: _ => l | _ => "" end.

(* The class of a block with a map2 spec, unmarshal.go:236-264: None is a nil pointer. *)
Definition first_value {K V} (m : list (K * V)) : option V :=
  match m with (_, v) :: _ => Some v | [] => None end.
Definition map2_class (m : list (string * list (string * sstruct))) (b : hblock) : option sstruct :=
  let inner := match lookup (label0 b) m with
               | Some ms => ms
               | None => match first_value m with Some ms => ms | None => [] end
               end in
  match lookup (label1 b) inner with
  | Some s => Some s
  | None => match first_value m with Some ms => first_value ms | None => None end
  end.
Definition map_class (m : list (string * sstruct)) (key : string) : option sstruct :=
  match lookup key m with Some s => Some s | None => first_value m end.

(* unmarshal.go:282-293: missing keys are taken from the label fields of the struct *)
Definition map2_key (b : hblock) (own : string * string) : string * string :=
  if String.eqb (label0 b) "" then own
  else (label0 b,
        if String.eqb (label1 b) "" then
          if negb (String.eqb (snd own) "") then snd own else fst own
        else label1 b).

Definition pair_type : gtype := TArray string_type.

Fixpoint map2_loop (dec : decoder) (dat : string) (kt et : gtype) (m : list (string * list (string * sstruct)))
    (bs : list hblock) (acc : list ((string * string) * hval)) (ref : hrefmap)
  : hrefmap * result (list ((string * string) * hval)) :=
  match bs with
  | [] => (ref, Ok acc)
  | b :: bs' =>
    match map2_class m b with
    | None => fails ref (Panic "nil pointer dereference")
    | Some s =>
      match decode_block dec dat (Some 2) s ref b with
      | (ref', Ok (t, v)) =>
        let (xt, x) := stored et t v in
        if assignable pair_type kt && assignable xt et
        then map2_loop dec dat kt et m bs' (insert (map2_key b (own_labels t v)) x acc) ref'
        else fails ref' (Panic "reflect: value not assignable in SetMapIndex")
      | (ref', Err e) => (ref', Err e)
      | (ref', Panic p) => (ref', Panic p)
      end
    end
  end.

Fixpoint map_loop (dec : decoder) (dat : string) (kt et : gtype) (m : list (string * sstruct))
    (bs : list hblock) (acc : list (string * hval)) (ref : hrefmap) : hrefmap * result (list (string * hval)) :=
  match bs with
  | [] => (ref, Ok acc)
  | b :: bs' =>
    match b_labels b with
    | [] => fails ref (Panic "index out of range [0] with length 0")                (* 319 *)
    | key :: _ =>
      match map_class m key with
      | None => fails ref (Panic "nil pointer dereference")
      | Some s =>
        match decode_block dec dat (Some 1) s ref b with
        | (ref', Ok (t, v)) =>
          let (xt, x) := stored et t v in
          if assignable string_type kt && assignable xt et
          then map_loop dec dat kt et m bs' (insert key x acc) ref'
          else fails ref' (Panic "reflect: value not assignable in SetMapIndex")
        | (ref', Err e) => (ref', Err e)
        | (ref', Panic p) => (ref', Panic p)
        end
      end
    end
  end.

(* List spec on a map field: only the first class, keyed by the first label (unmarshal.go:386-392). *)
Fixpoint listmap_loop (dec : decoder) (dat : string) (kt et : gtype) (first : sstruct)
    (bs : list hblock) (acc : list (string * hval)) (ref : hrefmap) : hrefmap * result (list (string * hval)) :=
  match bs with
  | [] => (ref, Ok acc)
  | b :: bs' =>
    match decode_block dec dat None first ref b with
    | (ref', Ok (t, v)) =>
      match b_labels b with
      | [] => fails ref' (Panic "index out of range [0] with length 0")
      | key :: _ =>
        let (xt, x) := stored et t v in
        if assignable string_type kt && assignable xt et
        then listmap_loop dec dat kt et first bs' (insert key x acc) ref'
        else fails ref' (Panic "reflect: value not assignable in SetMapIndex")
      end
    | (ref', Err e) => (ref', Err e)
    | (ref', Panic p) => (ref', Panic p)
    end
  end.

(* List spec on a slice field, unmarshal.go:364-370,393-399 *)
Fixpoint list_loop (dec : decoder) (dat : string) (et : gtype) (specs : list sstruct) (first : sstruct)
    (k : nat) (bs : list hblock) (ref : hrefmap) : hrefmap * result (list hval) :=
  match bs with
  | [] => (ref, Ok [])
  | b :: bs' =>
    match decode_block dec dat None (nth_or_first specs first k) ref b with
    | (ref', Ok (t, v)) =>
      let (xt, x) := stored et t v in
      if assignable xt et then
        match list_loop dec dat et specs first (S k) bs' ref' with
        | (ref2, Ok l) => (ref2, Ok (x :: l))
        | (ref2, Err e) => (ref2, Err e)
        | (ref2, Panic p) => (ref2, Panic p)
        end
      else fails ref' (Panic "reflect.Set: value not assignable")
    | (ref', Err e) => (ref', Err e)
    | (ref', Panic p) => (ref', Panic p)
    end
  end.

Definition mapped {A} (f : A -> gtype * hval) (r : hrefmap * result A)
  : hrefmap * result (option (gtype * hval)) :=
  match r with
  | (ref, Ok a) => (ref, Ok (Some (f a)))
  | (ref, Err e) => (ref, Err e)
  | (ref, Panic p) => (ref, Panic p)
  end.

(* The value of a field with a spec, from its blocks: unmarshal.go:219-427. *)
Definition block_value (dec : decoder) (dat : string) (t : gtype) (f : gfield) (v : option svalue)
    (bs : list hblock) (ref : hrefmap) : hrefmap * result (option (gtype * hval)) :=
  match bs with
  | [] => (ref, Ok None)                                                            (* 222-224 *)
  | b0 :: _ =>
    match v with
    | Some (VMap2 m) =>
      match under E (ftype f) with
      | TMap kt et => mapped (fun r => (ftype f, HMap2 r)) (map2_loop dec dat kt et m bs [] ref)
      | _ => (ref, Err "type mismatch")
      end
    | Some (VMap m) =>
      match under E (ftype f) with
      | TMap kt et => mapped (fun r => (ftype f, HMap r)) (map_loop dec dat kt et m bs [] ref)
      | _ => (ref, Err "type mismatch")
      end
    | Some (VList []) => (ref, Panic "index out of range [0] with length 0")        (* 354 *)
    | Some (VList (first :: rest)) =>
      match under E (ftype f) with
      | TMap kt et => mapped (fun r => (ftype f, HMap r)) (listmap_loop dec dat kt et first bs [] ref)
      | TSlice et => mapped (fun r => (ftype f, HSlice r)) (list_loop dec dat et (first :: rest) first 0 bs ref)
      | _ => (ref, Panic "reflect.MakeSlice of non-slice type")
      end
    | Some (VSingle s) =>                                                           (* 406-426 *)
      mapped (fun tv => match option_map (under E) (option_map snd (find_field t (fname f))) with
                        | Some (TIface _) | Some (TPtr _) => (TPtr (fst tv), HPtr (fst tv) (snd tv))
                        | _ => tv
                        end)
        (decode_block dec dat None s ref b0)
    | None => (ref, Ok None)
    end
  end.
Definition block_actions (dec : decoder) (dat : string) (t : gtype) (m : list (string * svalue))
    (p : body_parts) (fs : list gfield) : list action :=
  map (fun f => (fname f, fun _ ref =>
    block_value dec dat t f (lookup (fname f) m) (blocks_of (tag_of f) (p_ori p)) ref)) fs.

Definition stop {A} (v : hval) (ref : hrefmap) (r : result A) : hval * hrefmap * result unit :=
  (v, ref, match r with Ok _ => Ok tt | Err e => Err e | Panic p => Panic p end).

(* UnmarshalSpecTree on a struct, unmarshal.go:61-432, except for the recursive calls. *)
Definition unmarshal_with (dec : decoder) (m : list (string * svalue)) (ref : hrefmap) (labels : list string)
    (t : gtype) (v : hval) (dat : string) : hval * hrefmap * result unit :=
  match under E t with
  | TStruct fs =>
    match (do its <- parse_file dat; do attrs <- file_attrs its; Ok (its, attrs)) with
    | Ok (its, attrs) =>
      let nulls := map a_name (filter (fun a => is_null (a_value a)) attrs) in
      match loop_fields depth nulls fs m ref with
      | Ok L =>
        match (do p <- split_body dat nulls L attrs (file_blocks its);
               do raw <- gohcl_decode (l_new L) (p_plain p) (p_rest p); Ok (p, raw)) with
        | Ok (p, raw) =>
          run t (label_attr_actions p (l_labels L) ++ label_arg_actions t labels (l_labels L)
                 ++ plain_actions p (l_new L) raw ++ generic_actions dat p (l_dec L)
                 ++ block_actions dec dat t (l_map L) p (l_ori L))%list v (l_ref L)
        | r => stop v (l_ref L) r
        end
      | r => stop v ref r
      end
    | r => stop v ref r
    end
  | _ => (v, ref, Err "non-struct object")
  end.

(* Nested blocks are shorter texts, so the length of the text bounds the recursion (see
   unmarshal_fuel in StructFuel.v). *)
Fixpoint unmarshal_tree (fuel : nat) (s : sstruct) (ref : hrefmap) (labels : list string)
    (t : gtype) (v : hval) (dat : string) : hval * hrefmap * result unit :=
  match fuel with
  | 0 => (v, ref, Panic "fuel")
  | S fuel' => unmarshal_with (unmarshal_tree fuel') (spec_fields s) ref labels t v dat
  end.

(* UnmarshalSpec, unmarshal.go:48-51; a nil spec has no fields. *)
Definition unmarshal_spec (spec : option sstruct) (ref : hrefmap) (labels : list string)
    (t : gtype) (v : hval) (dat : string) : hval * hrefmap * result unit :=
  unmarshal_tree (S (String.length dat)) (match spec with Some s => s | None => SStruct "" None end)
    ref labels t v dat.

(* The caller's spec afterwards: loopFields stores into the map of a spec that has one
   (unmarshal.go:102-108,621,645,668). *)
Definition spec_after (nulls : list string) (spec : sstruct) (t : gtype) (ref : hrefmap) : sstruct :=
  match spec, under E t with
  | SStruct c (Some m), TStruct fs =>
    match loop_fields depth nulls fs m ref with
    | Ok L => SStruct c (Some (l_map L))
    | _ => spec
    end
  | _, _ => spec
  end.

End Struct.
