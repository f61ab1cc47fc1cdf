(* Model of functions of internal/lang/funcs: collection.go, string.go, number.go,
   conversion.go, sensitive.go and redact.go, with the parts of the library go-cty they rest on.

   Simplifications.  Refinements of unknown values other than the known prefix of a string are
   left out (refinements.go:10-12 adds "not null").  Maps and objects hold their elements in
   key order and sets in a fixed order.  Conversion, unification, the equality of numbers,
   text segmentation and quoting are parameters.  Errors of an argument lose its number.
   The source of go-cty (v1.17.0) is not at hand: what is marked (library) is written from
   knowledge of it and could not be compared with its text. *)

From Verif Require Import Base CtyModel.

(* ----- types and values of go-cty ----- *)

Inductive kind := KDyn | KStr | KNum | KBool | KList | KSet | KMap | KTuple | KObj.
(* The element type of a list, set or map; the types of a tuple (with empty names) or of the
   attributes of an object. *)
Inductive ty := Ty (k : kind) (args : list (string * ty)).
Definition dyn := Ty KDyn [].
Definition str := Ty KStr [].
Definition numt := Ty KNum [].
Definition boolt := Ty KBool [].
Definition list_of (t : ty) := Ty KList [("", t)].
Definition map_of (t : ty) := Ty KMap [("", t)].
Definition kind_of (t : ty) : kind := let (k, _) := t in k.
Definition ty_args (t : ty) : list (string * ty) := let (_, a) := t in a.

Definition kind_eqb (a b : kind) : bool :=
  match a, b with
  | KDyn, KDyn | KStr, KStr | KNum, KNum | KBool, KBool | KList, KList | KSet, KSet
  | KMap, KMap | KTuple, KTuple | KObj, KObj => true
  | _, _ => false
  end.
Fixpoint ty_eqb (a b : ty) {struct a} : bool :=
  match a, b with
  | Ty k l, Ty k' l' =>
    kind_eqb k k' &&
    (fix go l l' := match l, l' with
     | [], [] => true
     | (n, t) :: l, (n', t') :: l' => String.eqb n n' && ty_eqb t t' && go l l'
     | _, _ => false
     end) l l'
  end.
(* Type.ElementType *)
Definition element_type (t : ty) : ty := match ty_args t with (_, u) :: _ => u | [] => dyn end.
(* TestConformance: the dynamic type in the second stands for anything. *)
Fixpoint conforms (a b : ty) {struct a} : bool :=
  match a, b with
  | Ty k l, Ty k' l' =>
    kind_eqb k' KDyn ||
    (kind_eqb k k' &&
     (fix go l l' := match l, l' with
      | [], [] => true
      | (n, t) :: l, (n', t') :: l' => String.eqb n n' && conforms t t' && go l l'
      | _, _ => false
      end) l l')
  end.

(* big.Float: a finite number with its precision, or an infinity. *)
Inductive number := Fin (prec : Z) (d : dyadic) | Inf (negative : bool).
(* cty.NumberIntVal: big.Float.SetInt64 gives precision 64. *)
Definition int_val (z : Z) : number := Fin 64 (mkD z 0).

(* The elements of a value are beside its shape, with their names in maps and objects. *)
Inductive shape :=
| SUnknown (t : ty) (prefix : string)
| SNull (t : ty)
| SStr (s : string)
| SNum (n : number)
| SBool (b : bool)
| SList (t : ty) | SSet (t : ty) | SMap (t : ty)
| STuple | SObj.
Definition mark := string.
Inductive value := Val (ms : list mark) (s : shape) (elems : list (string * value)).

Definition shape_of (v : value) : shape := let (_, s, _) := v in s.
Definition elems (v : value) : list (string * value) := let (_, _, l) := v in l.
Definition marks_of (v : value) : list mark := let (m, _, _) := v in m.
Definition plain (s : shape) : value := Val [] s [].
Definition unknown (t : ty) : value := plain (SUnknown t "").
Definition str_val (s : string) : value := plain (SStr s).
Definition num_val (n : number) : value := plain (SNum n).
Definition bool_val (b : bool) : value := plain (SBool b).
Definition named {A} (l : list A) : list (string * A) := map (fun x => ("", x)) l.
Definition list_val (t : ty) (l : list value) : value := Val [] (SList t) (named l).

Fixpoint type_of (v : value) : ty :=
  match v with
  | Val _ s l =>
    match s with
    | SUnknown t _ | SNull t => t
    | SStr _ => str
    | SNum _ => numt
    | SBool _ => boolt
    | SList t => list_of t
    | SSet t => Ty KSet [("", t)]
    | SMap t => map_of t
    | STuple => Ty KTuple ((fix go l := match l with [] => [] | (_, x) :: l => ("", type_of x) :: go l end) l)
    | SObj => Ty KObj ((fix go l := match l with [] => [] | (k, x) :: l => (k, type_of x) :: go l end) l)
    end
  end.

Definition is_null (v : value) : bool := match shape_of v with SNull _ => true | _ => false end.
Definition is_known (v : value) : bool := match shape_of v with SUnknown _ _ => false | _ => true end.
Fixpoint wholly_known (v : value) : bool :=
  match v with
  | Val _ (SUnknown _ _) _ => false
  | Val _ _ l => (fix go l := match l with [] => true | (_, x) :: l => wholly_known x && go l end) l
  end.

(* ----- marks ----- *)

Definition has_mark (m : mark) (ms : list mark) : bool := existsb (String.eqb m) ms.
Definition union (a b : list mark) : list mark := (a ++ filter (fun m => negb (has_mark m a)) b)%list.
Definition with_marks (ms : list mark) (v : value) : value :=
  let (m, s, l) := v in Val (union m ms) s l.
Definition unmark (v : value) : value := let (_, s, l) := v in Val [] s l.
(* UnmarkDeep: the value and all marks in it. *)
Fixpoint unmark_deep (v : value) : value :=
  match v with
  | Val _ s l => Val [] s ((fix go l := match l with [] => [] | (k, x) :: l => (k, unmark_deep x) :: go l end) l)
  end.
Fixpoint deep_marks (v : value) : list mark :=
  match v with
  | Val m _ l => (m ++ (fix go l := match l with [] => [] | (_, x) :: l => deep_marks x ++ go l end) l)%list
  end.

(* Sensitive and Contains, internal/lang/marks/marks.go:24-40 *)
Definition sensitive_mark : mark := "Sensitive".
Definition contains_mark (m : mark) (v : value) : bool := has_mark m (deep_marks v).

(* ----- function.Function.Call (library) ----- *)

Record param := mkParam { p_type : ty; p_null : bool; p_unknown : bool; p_dyn : bool; p_marked : bool }.
Definition plain_param (t : ty) : param := mkParam t false false false false.

Record func := mkFunc
  { f_params : list param;
    f_var : option param;
    f_type : list value -> result ty;
    f_impl : list value -> ty -> result value }.

(* The parameter of each argument; None if there are too many or too few. *)
Fixpoint pair_args (ps : list param) (var : option param) (args : list value) : option (list (param * value)) :=
  match ps, args with
  | [], [] => Some []
  | [], a :: args' =>
    match var with
    | Some p => match pair_args [] var args' with Some l => Some ((p, a) :: l) | None => None end
    | None => None
    end
  | p :: ps', a :: args' => match pair_args ps' var args' with Some l => Some ((p, a) :: l) | None => None end
  | _ :: _, [] => None
  end.
Definition seen (pa : param * value) : value := if p_marked (fst pa) then snd pa else unmark_deep (snd pa).
Definition taken_marks (pa : param * value) : list mark := if p_marked (fst pa) then [] else deep_marks (snd pa).
(* returnTypeForValues (library), the arguments in order: true if one of dynamic type ends the
   check; those after it are not looked at. *)
Fixpoint check_args (l : list (param * value)) : result bool :=
  match l with
  | [] => Ok false
  | (p, v) :: l' =>
    if is_null v && negb (p_null p) then Err "argument must not be null"
    else if kind_eqb (kind_of (type_of v)) KDyn then if p_dyn p then check_args l' else Ok true
    else if negb (conforms (type_of v) (p_type p)) then Err "inappropriate value"
    else check_args l'
  end.
Definition unknown_arg (pa : param * value) : bool := negb (is_known (snd pa)) && negb (p_unknown (fst pa)).
(* A panic of the type function or of the implementation is turned into an error. *)
Definition no_panic {A} (r : result A) : result A := match r with Panic p => Err ("panic: " +++ p) | _ => r end.

(* Which marks an unknown result has when the implementation is not called (because an argument
   is unknown or of dynamic type) is a parameter, so that no theorem depends on it. *)
Definition call (early_marks : list (param * value) -> list mark) (f : func) (args : list value) : result value :=
  match pair_args (f_params f) (f_var f) args with
  | None => Err "wrong number of arguments"
  | Some l =>
    do stop <- check_args l;
    if stop : bool then Ok (with_marks (early_marks l) (unknown dyn))
    else
      let vs := map seen l in
      do t <- no_panic (f_type f vs);
      if existsb unknown_arg l then Ok (with_marks (early_marks l) (unknown t))
      else do r <- no_panic (f_impl f vs t); Ok (with_marks (flat_map taken_marks l) r)
  end.

(* AsString, for a value that is known, not null and unmarked *)
Definition as_string (v : value) : result string :=
  match v with Val [] (SStr s) _ => Ok s | _ => Panic "not a string" end.
(* ElementIterator and the panics for what cannot be iterated *)
Definition iterate (v : value) : result (list (string * value)) :=
  match v with
  | Val [] (SList _ | SSet _ | SMap _ | STuple | SObj) l => Ok l
  | _ => Panic "can't use this value as a collection"
  end.

(* Value.Equals (library) for values without marks: None is unknown.  Simplification: of
   collections with nested values of unknown type nothing is known. *)
Definition prefix_fits (p s : string) : bool := prefix p s.
Definition excluded (pre : string) (w : value) : bool :=
  match shape_of w with SStr s => negb (prefix_fits pre s) | _ => false end.
Fixpoint has_dyn (t : ty) : bool :=
  match t with
  | Ty k l => kind_eqb k KDyn || (fix go l := match l with [] => false | (_, t) :: l => has_dyn t || go l end) l
  end.

Section Funcs.
(* rawNumberEqual (library): do two numbers have the same decimal text. *)
Variable same_number : number -> number -> bool.
(* convert.UnifyUnsafe and convert.Convert (library) *)
Variable unify : list ty -> option ty.
Variable convert : value -> ty -> result value.
(* stdlib.Strlen: the number of grapheme clusters (library) *)
Variable graphemes : string -> Z.
(* fmt.Sprintf("%q") and Type.FriendlyName (library) *)
Variable quoted : string -> string.
Variable friendly : ty -> string.

Definition same_scalar (a b : shape) : bool :=
  match a, b with
  | SStr s, SStr s' => String.eqb s s'
  | SNum n, SNum n' => same_number n n'
  | SBool b, SBool b' => Bool.eqb b b'
  | _, _ => true
  end.
Fixpoint equals (v w : value) {struct v} : option bool :=
  match v, w with
  | Val _ (SUnknown _ _) _, Val _ (SUnknown _ _) _ => None
  | Val _ (SUnknown t p) _, Val _ _ _ =>
    if is_null w || has_dyn t then None
    else if negb (ty_eqb (type_of v) (type_of w)) then Some false
    else if excluded p w then Some false else None
  | Val _ _ _, Val _ (SUnknown t p) _ =>
    if is_null v || has_dyn t then None
    else if negb (ty_eqb (type_of v) (type_of w)) then Some false
    else if excluded p v then Some false else None
  | Val _ (SNull _) _, Val _ (SNull _) _ => Some true
  | Val _ (SNull _) _, _ => Some false
  | _, Val _ (SNull _) _ => Some false
  | Val _ s l, Val _ s' l' =>
    if has_dyn (type_of v) || has_dyn (type_of w) then None
    else if negb (ty_eqb (type_of v) (type_of w)) then Some false
    else if negb (same_scalar s s') then Some false
    else if negb (Nat.eqb (List.length l) (List.length l')) then Some false
    else (fix go l l' := match l, l' with
          | (k, x) :: l, (k', y) :: l' =>
            if negb (String.eqb k k') then Some false
            else match equals x y with
            | None => None
            | Some false => Some false
            | Some true => go l l'
            end
          | _, _ => Some true
          end) l l'
  end.

Definition any_param : param := mkParam dyn false false false false.
Definition all_param : param := mkParam dyn true true true false.
Definition static (t : ty) : list value -> result ty := fun _ => Ok t.
Definition bad_args {A} : result A := Panic "index out of range".

(* ----- collection.go ----- *)

(* Value.Length: the length of a set with unknown elements is unknown. *)
Definition length_val (v : value) : value :=
  match shape_of v with
  | SUnknown _ _ => Val (marks_of v) (SUnknown numt "") []
  | SSet _ =>
    if negb (wholly_known v) && Nat.ltb 1 (List.length (elems v)) then Val (marks_of v) (SUnknown numt "") []
    else Val (marks_of v) (SNum (int_val (Z.of_nat (List.length (elems v))))) []
  | _ => Val (marks_of v) (SNum (int_val (Z.of_nat (List.length (elems v))))) []
  end.
(* LengthFunc, collection.go:19-64 *)
Definition length_func : func := mkFunc [mkParam dyn false true true true] None
  (fun args => match args with
   | [v] => match kind_of (type_of v) with
            | KNum | KBool => Err "argument must be a string, a collection type, or a structural type"
            | _ => Ok numt
            end
   | _ => bad_args
   end)
  (fun args _ => match args with
   | [v] =>
     match kind_of (type_of v) with
     | KDyn => Ok (with_marks (marks_of v) (unknown numt))
     | KTuple | KObj => Ok (with_marks (marks_of v) (num_val (int_val (Z.of_nat (List.length (ty_args (type_of v)))))))
     | KStr => match shape_of v with
               | SStr s => Ok (with_marks (marks_of v) (num_val (int_val (graphemes s))))
               | _ => Ok (with_marks (marks_of v) (unknown numt))
               end
     | KList | KSet | KMap => Ok (length_val v)
     | _ => Err "impossible value type for length(...)"
     end
   | _ => bad_args
   end).

(* AllTrueFunc, collection.go:68-94 *)
Fixpoint all_true (l : list (string * value)) : result value :=
  match l with
  | [] => Ok (bool_val true)
  | (_, v) :: l' =>
    match shape_of v with
    | SUnknown _ _ => Ok (unknown boolt)
    | SNull _ => Ok (bool_val false)
    | SBool true => all_true l'
    | SBool false => Ok (bool_val false)
    | _ => Panic "And on a value that is not a bool"
    end
  end.
Definition alltrue_func : func := mkFunc [plain_param (list_of boolt)] None (static boolt)
  (fun args _ => match args with [v] => do l <- iterate v; all_true l | _ => bad_args end).

(* AnyTrueFunc, collection.go:98-129 *)
Fixpoint any_true (has_unknown : bool) (l : list (string * value)) : result value :=
  match l with
  | [] => Ok (if has_unknown then unknown boolt else bool_val false)
  | (_, v) :: l' =>
    match shape_of v with
    | SUnknown _ _ => any_true true l'
    | SNull _ => any_true has_unknown l'
    | SBool true => Ok (bool_val true)
    | SBool false => any_true has_unknown l'
    | _ => Panic "Or on a value that is not a bool"
    end
  end.
Definition anytrue_func : func := mkFunc [plain_param (list_of boolt)] None (static boolt)
  (fun args _ => match args with [v] => do l <- iterate v; any_true false l | _ => bad_args end).

(* CoalesceFunc, collection.go:135-174 *)
Fixpoint coalesce (t : ty) (args : list value) : result value :=
  match args with
  | [] => Err "no non-null, non-empty-string arguments"
  | a :: args' =>
    (* 159: the error is dropped, and NilVal is used as if it were a value *)
    match convert a t with
    | Ok v =>
      if negb (is_known v) then Ok (unknown t)
      else if is_null v then coalesce t args'
      else match shape_of v with
           | SStr "" => if ty_eqb t str then coalesce t args' else Ok v
           | _ => Ok v
           end
    | Err e => Panic "NilVal"
    | Panic p => Panic p
    end
  end.
Definition coalesce_func : func := mkFunc [] (Some all_param)
  (fun args => match unify (map type_of args) with
               | None => Err "all arguments must have the same type"
               | Some t => Ok t
               end)
  (fun args t => coalesce t args).

(* IndexFunc, collection.go:177-219 (the test at 195 is never reached: unknown arguments end in call) *)
Fixpoint index_from (i : Z) (l : list (string * value)) (w : value) : result value :=
  match l with
  | [] => Err "item not found"
  | (_, v) :: l' =>
    match equals v w with
    | None => Ok (unknown numt)
    | Some true => Ok (num_val (int_val i))
    | Some false => index_from (i + 1) l' w
    end
  end.
Definition index_func : func := mkFunc [any_param; any_param] None (static numt)
  (fun args _ => match args with
   | [v; w] =>
     match kind_of (type_of v) with
     | KList | KTuple =>
       do l <- iterate v;
       match l with
       | [] => Err "cannot search an empty list"
       | _ => index_from 0 l w
       end
     | _ => Err "argument must be a list or tuple"
     end
   | _ => bad_args
   end).

(* redactIfSensitive, redact.go:13-23, for strings *)
Definition redact (s : string) (ms : list mark) : string :=
  if has_mark sensitive_mark ms then "(sensitive value)" else quoted s.

(* LookupFunc, collection.go:222-325 *)
Definition lookup_type (args : list value) : result ty :=
  match args with
  | m :: k :: rest =>
    if Nat.ltb 1 (List.length rest) then Err "lookup() takes two or three arguments" else
    match kind_of (type_of m) with
    | KObj =>
      match shape_of k with
      | SUnknown _ _ => Ok dyn
      | SStr key =>
        match lookup key (ty_args (type_of m)) with
        | Some t => Ok t
        | None => match rest with
                  | d :: _ => Ok (type_of d)
                  | [] => Err ("the given object has no attribute " +++ quoted key)
                  end
        end
      | _ => Panic "not a string"
      end
    | KMap =>
      match rest with
      | d :: _ => match convert d (element_type (type_of m)) with
                  | Ok _ => Ok (element_type (type_of m))
                  | Err _ => Err "the default value must have the same type as the map elements"
                  | Panic p => Panic p
                  end
      | [] => Ok (element_type (type_of m))
      end
    | _ => Err "lookup() requires a map as the first argument"
    end
  | _ => bad_args
  end.
Definition lookup_impl (args : list value) (t : ty) : result value :=
  match args with
  | m :: k :: rest =>
    let ms := union (marks_of m) (marks_of k) in
    do key <- as_string (unmark k);
    match shape_of m with
    | SUnknown _ _ => Ok (with_marks ms (unknown t))
    | SObj | SMap _ =>
      match lookup key (elems m) with
      | Some v => Ok (with_marks ms v)
      | None =>
        match rest with
        | [d] => do v <- convert d t; Ok (with_marks ms v)
        | _ => Err ("lookup failed to find key " +++ redact key (marks_of k))
        end
      end
    | _ => Panic "not a map"
    end
  | _ => bad_args
  end.
Definition lookup_func : func := mkFunc [mkParam dyn false false false true; mkParam str false false false true]
  (Some (mkParam dyn true true true true)) lookup_type lookup_impl.

(* MatchkeysFunc, collection.go:330-410 *)
Fixpoint any_equal (key : value) (set : list (string * value)) : option bool :=
  match set with
  | [] => Some false
  | (_, s) :: set' => match equals key s with
                      | None => None
                      | Some true => Some true
                      | Some false => any_equal key set'
                      end
  end.
(* None: the search stops at an unknown comparison *)
Fixpoint matching (keys set : list (string * value)) (values : list value) : option (list value) :=
  match keys, values with
  | (_, k) :: keys', v :: values' =>
    match any_equal k set with
    | None => None
    | Some b => match matching keys' set values' with
                | None => None
                | Some l => Some (if b then v :: l else l)
                end
    end
  | _, _ => Some []
  end.
Definition matchkeys_func : func :=
  mkFunc [plain_param (list_of dyn); plain_param (list_of dyn); plain_param (list_of dyn)] None
  (fun args => match args with
   | [v; k; s] => match unify [type_of k; type_of s] with
                  | None => Err "keys and searchset must be of the same type"
                  | Some _ => Ok (type_of v)
                  end
   | _ => bad_args
   end)
  (fun args t => match args with
   | [v; k; s] =>
     let empty := list_val (element_type t) [] in
     do vs <- iterate v;
     do ks0 <- iterate k;
     if negb (Nat.eqb (List.length vs) (List.length ks0)) then Err "length of keys and values should be equal" else
     match unify [type_of k; type_of s] with
     | None => Panic "NilType"
     | Some u =>
       do k' <- convert k u;
       do s' <- convert s u;
       do ks <- iterate k';
       do ss <- iterate s';
       match ss with
       | [] => Ok empty
       | _ =>
         if negb (wholly_known v) || negb (wholly_known k') then Ok (unknown t) else
         match matching ks ss (map snd vs) with
         | None => Ok empty                                                         (* 392-394 *)
         | Some [] => Ok empty
         | Some l => Ok (list_val (element_type t) l)
         end
       end
     end
   | _ => bad_args
   end).

(* OneFunc, collection.go:414-487 *)
Definition one_error {A} : result A := Err "must be a list, set, or tuple value with either zero or one elements".
Definition one_func : func := mkFunc [any_param] None
  (fun args => match args with
   | [v] => match type_of v with
            | Ty KList l | Ty KSet l => Ok (element_type (type_of v))
            | Ty KTuple [] => Ok dyn
            | Ty KTuple [(_, t)] => Ok t
            | _ => one_error
            end
   | _ => bad_args
   end)
  (fun args t => match args with
   | [v] =>
     match shape_of v with
     | SList _ | SSet _ | STuple =>
       match shape_of (length_val v) with
       | SUnknown _ _ => Ok (unknown t)
       | _ => match elems v with
              | [] => Ok (plain (SNull t))
              | [(_, x)] => Ok x
              | _ => one_error
              end
       end
     | _ => one_error
     end
   | _ => bad_args
   end).

(* big.Float.Add (library): the exact sum rounded, to nearest even, to the larger precision;
   opposite infinities panic. *)
Definition round_prec (p : Z) (d : dyadic) : dyadic :=
  let a := Z.abs (num d) in
  mkD (Z.sgn (num d) * round_mantissa a (Z.log2 a + 1 - p)) (den d).
Definition add_dyadic (a b : dyadic) : dyadic :=
  let k := Nat.max (den a) (den b) in
  mkD (num a * pow2 (k - den a) + num b * pow2 (k - den b)) k.
Definition add_number (a b : number) : option number :=
  match a, b with
  | Fin p x, Fin q y => Some (Fin (Z.max p q) (round_prec (Z.max p q) (add_dyadic x y)))
  | Inf s, Inf s' => if Bool.eqb s s' then Some (Inf s) else None
  | Inf s, _ => Some (Inf s)
  | _, Inf s => Some (Inf s)
  end.
Definition sum_error {A} : result A := Err "argument must be list, set, or tuple of number values".
Definition to_number (v : value) : result number :=
  if is_null v then sum_error
  else match convert v numt with
       | Ok (Val _ (SNum n) _) => Ok n
       | Ok _ => Panic "not a number"
       | Err _ => sum_error
       | Panic p => Panic p
       end.
Fixpoint sum_from (s : number) (l : list (string * value)) : result number :=
  match l with
  | [] => Ok s
  | (_, v) :: l' =>
    do n <- to_number v;
    match add_number s n with
    | Some s' => sum_from s' l'
    | None => Err "can't compute sum of opposing infinities"
    end
  end.
(* SumFunc, collection.go:491-557, without the type named in the message at 514 *)
Definition sum_func : func := mkFunc [any_param] None (static numt)
  (fun args _ => match args with
   | [v] =>
     match iterate v with
     | Ok [] => Err "cannot sum an empty list"
     | Ok ((_, x) :: l) =>
       match shape_of v with
       | SMap _ | SObj => Err "argument must be list, set, or tuple"
       | _ =>
         if negb (wholly_known v) then Ok (unknown numt)
         else do s <- to_number x; do r <- sum_from s l; Ok (num_val r)
       end
     | _ => Err "cannot sum noniterable"
     end
   | _ => bad_args
   end).

(* TransposeFunc, collection.go:561-612; sort.Strings is an insertion sort here *)
Fixpoint sorted_insert (s : string) (l : list string) : list string :=
  match l with
  | [] => [s]
  | t :: l' => if String.leb s t then s :: l else t :: sorted_insert s l'
  end.
Definition sort_strings (l : list string) : list string := fold_right sorted_insert [] l.
Definition entry (m : list (string * list string)) (k : string) : list string :=
  match lookup k m with Some l => l | None => [] end.
Fixpoint strings_of (l : list (string * value)) : result (list string) :=
  match l with
  | [] => Ok []
  | (_, v) :: l' => do s <- as_string v; do r <- strings_of l'; Ok (s :: r)
  end.
Definition transpose_list (key : string) (vals : list string) (tmp : list (string * list string))
  : list (string * list string) :=
  fold_left (fun tmp v => insert v (sort_strings (entry tmp v ++ [key])%list) tmp) vals tmp.
Fixpoint transpose_loop (l : list (string * value)) (tmp : list (string * list string))
  : result (list (string * list string)) :=
  match l with
  | [] => Ok tmp
  | (key, v) :: l' =>
    do es <- iterate v;
    do vals <- strings_of es;
    transpose_loop l' (transpose_list key vals tmp)
  end.
Definition strings_val (l : list string) : value := list_val str (map str_val l).
Definition transpose_func : func := mkFunc [plain_param (map_of (list_of str))] None (static (map_of (list_of str)))
  (fun args t => match args with
   | [v] =>
     if negb (wholly_known v) then Ok (unknown t) else
     do l <- iterate v;
     do m <- transpose_loop l [];
     Ok (Val [] (SMap (list_of str)) (map (fun kl => (fst kl, strings_val (snd kl))) m))
   | _ => bad_args
   end).

(* ----- string.go ----- *)

(* StartsWithFunc, string.go:16-62 *)
Definition startswith_func : func := mkFunc [mkParam str false true false false; plain_param str] None (static boolt)
  (fun args _ => match args with
   | [v; p] =>
     do pre <- as_string p;
     match shape_of v with
     | SUnknown _ known =>
       if String.eqb pre "" then Ok (bool_val true)
       else if negb (String.eqb known "") && prefix pre known then Ok (bool_val true)
       else if negb (String.eqb known "") && Nat.leb (String.length pre) (String.length known) then Ok (bool_val false)
       else Ok (unknown boolt)
     | _ => do s <- as_string v; Ok (bool_val (prefix pre s))
     end
   | _ => bad_args
   end).

(* strings.HasSuffix and strings.Contains (library) *)
Definition has_suffix (s suf : string) : bool :=
  Nat.leb (String.length suf) (String.length s) &&
  String.eqb (substring (String.length s - String.length suf) (String.length suf) s) suf.
Fixpoint contains (s sub : string) : bool :=
  prefix sub s || match s with "" => false | String _ s' => contains s' sub end.
Definition two_strings (f : string -> string -> bool) : func :=
  mkFunc [plain_param str; plain_param str] None (static boolt)
  (fun args _ => match args with
   | [v; w] => do s <- as_string v; do t <- as_string w; Ok (bool_val (f s t))
   | _ => bad_args
   end).
(* EndsWithFunc, string.go:66-89, and StrContainsFunc, string.go:132-154 *)
Definition endswith_func : func := two_strings has_suffix.
Definition strcontains_func : func := two_strings contains.

(* strings.Replace with n < 0 (library), for a text that is not empty: skip counts the bytes
   of an occurrence that has been replaced. *)
Fixpoint replace_all (sub by_ : string) (skip : nat) (s : string) : string :=
  match s with
  | "" => ""
  | String c s' =>
    match skip with
    | S k => replace_all sub by_ k s'
    | 0 => if prefix sub s then by_ +++ replace_all sub by_ (String.length sub - 1) s'
           else String c (replace_all sub by_ 0 s')
    end
  end.
(* For an empty text Replace inserts at every character, for ASCII text at every byte. *)
Fixpoint insert_everywhere (by_ s : string) : string :=
  match s with
  | "" => by_
  | String c s' => by_ +++ String c (insert_everywhere by_ s')
  end.
(* regexp.Compile and ReplaceAllString (library) *)
Variable replace_regexp : string -> string -> string -> result string.
Fixpoint last_char (c : ascii) (s : string) : ascii :=
  match s with "" => c | String d s' => last_char d s' end.
Definition in_slashes (s : string) : bool :=
  match s with
  | String c (String d r) => Ascii.eqb c "/" && Ascii.eqb (last_char d r) "/"
  | _ => false
  end.
(* ReplaceFunc, string.go:93-128 *)
Definition replace_func : func := mkFunc [plain_param str; plain_param str; plain_param str] None (static str)
  (fun args _ => match args with
   | [v; w; x] =>
     do s <- as_string v; do sub <- as_string w; do by_ <- as_string x;
     if in_slashes sub then
       do r <- replace_regexp (substring 1 (String.length sub - 2) sub) s by_; Ok (str_val r)
     else if String.eqb sub "" then Ok (str_val (insert_everywhere by_ s))
     else Ok (str_val (replace_all sub by_ 0 s))
   | _ => bad_args
   end).

(* ----- number.go ----- *)

(* gocty.FromCtyValue into an int *)
Definition to_int (v : value) : result Z :=
  match shape_of v with
  | SNum (Fin _ d) => from_int d
  | SNum (Inf _) => Err "value must be a whole number"
  | _ => Err "incorrect type"
  end.
(* SignumFunc, number.go:75-98 *)
Definition signum_func : func := mkFunc [plain_param numt] None (static numt)
  (fun args _ => match args with
   | [v] => do z <- to_int v; Ok (num_val (int_val (if (z <? 0)%Z then -1 else if (0 <? z)%Z then 1 else 0)))
   | _ => bad_args
   end).

Definition char_in (lo hi : nat) (c : ascii) : bool :=
  Nat.leb lo (nat_of_ascii c) && Nat.leb (nat_of_ascii c) hi.
(* big.Int.SetString (library): an optional sign, then digits; letters of both cases are the
   same up to base 36.  None is failure. *)
Definition digit_value (base : Z) (c : ascii) : option Z :=
  let n := Z.of_nat (nat_of_ascii c) in
  let d := if char_in 48 57 c then Some (n - 48)%Z
           else if char_in 97 122 c then Some (n - 97 + 10)%Z
           else if char_in 65 90 c then Some (if (base <=? 36)%Z then n - 65 + 10 else n - 65 + 36)%Z
           else None in
  match d with Some x => if (x <? base)%Z then Some x else None | None => None end.
Fixpoint digits (base acc : Z) (s : string) : option Z :=
  match s with
  | "" => Some acc
  | String c s' => match digit_value base c with Some x => digits base (acc * base + x) s' | None => None end
  end.
Definition unsigned (base : Z) (s : string) : option Z :=
  match s with "" => None | _ => digits base 0 s end.
Definition parse_int (base : Z) (s : string) : option Z :=
  match s with
  | String "-" s' => option_map Z.opp (unsigned base s')
  | String "+" s' => unsigned base s'
  | _ => unsigned base s
  end.
(* big.Float.SetInt (library): exact *)
Definition set_int (z : Z) : number := Fin (Z.max 64 (Z.log2 (Z.abs z) + 1)) (mkD z 0).
(* strconv.Itoa, by way of "%v" *)
Variable itoa : Z -> string.
(* ParseIntFunc, number.go:101-159 *)
Definition parseint_func : func :=
  mkFunc [mkParam dyn false false false true; mkParam numt false false false true] None
  (fun args => match args with
   | v :: _ => if ty_eqb (type_of v) str then Ok numt else Err ("first argument must be a string, not " +++ friendly (type_of v))
   | _ => bad_args
   end)
  (fun args _ => match args with
   | [v; b] =>
     do s <- as_string (unmark v);
     do base <- to_int (unmark b);
     if (base <? 2)%Z || (62 <? base)%Z then Err "base must be a whole number between 2 and 62 inclusive" else
     match parse_int base s with
     | Some z => Ok (with_marks (union (marks_of v) (marks_of b)) (num_val (set_int z)))
     | None => Err ("cannot parse " +++ redact s (marks_of v) +++ " as a base "
                    +++ (if has_mark sensitive_mark (marks_of b) then "(sensitive value)" else itoa base) +++ " integer")
     end
   | _ => bad_args
   end).

(* ----- conversion.go ----- *)

(* convert.GetConversionUnsafe: is there a conversion between two types *)
Variable can_convert : ty -> ty -> bool.
(* MakeToFunc, conversion.go:24-100; the messages at 51-58 as one *)
Definition to_func (want : ty) : func := mkFunc [mkParam dyn true false true true] None
  (fun args => match args with
   | [v] =>
     if ty_eqb (type_of v) want || can_convert (type_of v) want then Ok want
     else Err ("cannot convert " +++ friendly (type_of v) +++ " to " +++ friendly want)
   | _ => bad_args
   end)
  (fun args t => match args with
   | [v] =>
     match convert v t with
     | Err _ =>
       let u := unmark_deep v in
       let got := type_of u in
       if contains_mark sensitive_mark v then
         Err ("cannot convert this sensitive " +++ friendly got +++ " to " +++ friendly want)
       else
         let what := match shape_of u with SStr s => quoted s | _ => "string" end in
         if ty_eqb got str && ty_eqb want boolt then
           Err ("cannot convert " +++ what +++ " to bool; only the strings ""true"" or ""false"" are allowed")
         else if ty_eqb got str && ty_eqb want numt then
           Err ("cannot convert " +++ what +++ " to number; given string must be a decimal representation of a number")
         else Err ("cannot convert " +++ friendly got +++ " to " +++ friendly want)
     | r => r
     end
   | _ => bad_args
   end).

(* ----- sensitive.go ----- *)

Definition value_param : param := mkParam dyn true true true true.
(* SensitiveFunc, sensitive.go:14-34: Unmark drops the other marks *)
Definition sensitive_func : func := mkFunc [value_param] None
  (fun args => match args with v :: _ => Ok (type_of v) | _ => bad_args end)
  (fun args _ => match args with
   | [v] => Ok (with_marks [sensitive_mark] (unmark v))
   | _ => bad_args
   end).
(* NonsensitiveFunc, sensitive.go:38-59 *)
Definition nonsensitive_func : func := mkFunc [value_param] None
  (fun args => match args with v :: _ => Ok (type_of v) | _ => bad_args end)
  (fun args _ => match args with
   | [v] => Ok (with_marks (filter (fun m => negb (String.eqb m sensitive_mark)) (marks_of v)) (unmark v))
   | _ => bad_args
   end).

End Funcs.
