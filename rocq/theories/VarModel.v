(* Model of how references and calls in HCL expressions are evaluated while a document is
   decoded: ExpressionToCty and callToCty (utils/util.go:40-166), the decoder into maps and
   lists with its bookkeeping in the variable tree (dethcl/mapslice.go), and the two loops by
   which the decoder into structs fills the tree (dethcl/unmarshal.go:116-131).

   The tree is the heap of TreeModel.v.  The evaluator of hclsyntax is not in the repository:
   [eval] is an assumption about that library.  Modelled: literals, references with steps,
   templates, binary operators, tuples, objects and calls.  Not modelled: conditionals, for
   expressions, splats, unknown and marked values, argument expansion.

   Simplifications: expressions are given as trees (their syntax is the library's; the parts
   that are written back into the text and parsed again, mapslice.go:14, 148, give the same
   tree); a failing call returns no tree, so what a failed decoding leaves behind in the
   caller's tree is not modelled; the value of null() is cty.NilVal in the code and null here; the replaced attribute expressions of mapslice.go:198 and
   unmarshal.go:124 are not read again. *)

From Verif Require Import Base CtyModel HclModel TreeModel.

(* ----- expressions ----- *)

(* One step of a reference: .name, [number] (also written .number) and ["text"]. *)
Inductive step :=
| SAttr (name : string)
| SIndex (z : Z)
| SKey (s : string).

(* hclsyntax expressions.  A bare name used as the key of an object is a literal text. *)
Inductive vexpr :=
| VNum (z : Z)
| VDec (m : Z) (k : nat)
| VStr (s : string)
| VBool (b : bool)
| VNull
| VRef (root : string) (steps : list step)
| VTpl (parts : list vexpr)                       (* "a ${x} b" *)
| VBin (o : string) (a b : vexpr)                 (* a + b *)
| VTuple (l : list vexpr)
| VObj (m : list (vexpr * vexpr))
| VCall (f : string) (args : list vexpr).

(* hclsyntax.Body: attributes with distinct names, and blocks with their labels. *)
Inductive vbody :=
| VBody (attrs : list (string * vexpr)) (blocks : list (string * list string * vbody)).
Definition vb_attrs (b : vbody) := match b with VBody a _ => a end.
Definition vb_blocks (b : vbody) := match b with VBody _ l => l end.

(* A function of go-cty: what it gives for evaluated arguments (library). *)
Definition hfunc : Type := list CtyModel.cval -> result CtyModel.cval.

(* What a Go function returns through reflect: results of type error, and others. *)
Inductive gout :=
| GError (e : option string)
| GValue (v : native).
(* An entry of map[string]interface{}: a Go function with so many parameters, and what
   reflect's Call does with it; or something that is not a function. *)
Inductive gofunc :=
| GoFunc (n_in : nat) (run : list native -> result (list gout))
| GoOther.

(* ref["functions"] as ExpressionToCty distinguishes it. *)
Inductive funcs :=
| FNone
| FHcl (m : list (string * hfunc))
| FGo (m : list (string * gofunc))
| FOther.

Section Eval.
(* go-cty: text normalisation, conversion to text in templates, binary operators. *)
Variable norm : string -> string.
Variable to_text : CtyModel.cval -> result string.
Variable binary : string -> CtyModel.cval -> CtyModel.cval -> result CtyModel.cval.

(* ----- the evaluator of the library ----- *)

(* hcl.GetAttr *)
Definition get_attr (v : CtyModel.cval) (name : string) : result CtyModel.cval :=
  match v with
  | CNull => Err "attempt to get attribute from null value"
  | CObj m => match lookup name m with Some x => Ok x | None => Err "unsupported attribute" end
  | _ => Err "unsupported attribute"
  end.

(* hcl.Index *)
Definition get_index (v : CtyModel.cval) (z : Z) : result CtyModel.cval :=
  match v with
  | CNull => Err "attempt to index null value"
  | CObj m => get_attr v (dec_Z z)
  | CTup l => if (z <? 0)%Z then Err "invalid index" else
              match nth_error l (Z.to_nat z) with Some x => Ok x | None => Err "invalid index" end
  | _ => Err "invalid index"
  end.

Definition do_step (v : CtyModel.cval) (s : step) : result CtyModel.cval :=
  match s with
  | SAttr n => get_attr v n
  | SIndex z => get_index v z
  | SKey n => match v with CTup _ => Err "unmodelled index" | _ => get_attr v n end
  end.
Fixpoint do_steps (v : CtyModel.cval) (l : list step) : result CtyModel.cval :=
  match l with
  | [] => Ok v
  | s :: l' => do x <- do_step v s; do_steps x l'
  end.

(* Expression.Value with the variables and functions of an hcl.EvalContext; None is a nil
   map (or, for both, a nil context). *)
Fixpoint eval (vars : option (list (string * CtyModel.cval)))
  (fns : option (list (string * hfunc))) (e : vexpr) : result CtyModel.cval :=
  match e with
  | VNum z => Ok (CNum (mkD z 0))
  | VDec m k => Ok (CNum (decimal m k))
  | VStr s => Ok (CStr s)
  | VBool b => Ok (CBool b)
  | VNull => Ok CNull
  | VRef root steps =>
    match vars with
    | None => Err "variables not allowed"
    | Some m => match lookup root m with
                | None => Err "unknown variable"
                | Some v => do_steps v steps
                end
    end
  | VTpl parts =>
    do s <- (fix go l := match l with
             | [] => Ok ""
             | e :: l' => do v <- eval vars fns e; do x <- to_text v; do r <- go l'; Ok (x +++ r)
             end) parts;
    Ok (CStr s)
  | VBin o a b => do x <- eval vars fns a; do y <- eval vars fns b; binary o x y
  | VTuple l =>
    do u <- (fix go l := match l with
             | [] => Ok []
             | e :: l' => do x <- eval vars fns e; do r <- go l'; Ok (x :: r)
             end) l;
    Ok (CTup u)
  | VObj m =>
    do u <- (fix go m := match m with
             | [] => Ok []
             | (k, e) :: m' =>
               do kv <- eval vars fns k; do kt <- to_text kv;
               do x <- eval vars fns e; do r <- go m'; Ok ((kt, x) :: r)
             end) m;
    Ok (CObj (fold_left (fun h kv => insert (fst kv) (snd kv) h) u []))
  | VCall f args =>
    match fns with
    | None => Err "function calls not allowed"
    | Some m => match lookup f m with
                | None => Err "call to unknown function"
                | Some g =>
                  do u <- (fix go l := match l with
                           | [] => Ok []
                           | e :: l' => do x <- eval vars fns e; do r <- go l'; Ok (x :: r)
                           end) args;
                  g u
                end
    end
  end.

(* ----- ExpressionToCty ----- *)

(* cty.Value.AsString *)
Definition as_string (v : CtyModel.cval) : result string :=
  match v with CStr s => Ok s | _ => Panic "not a string" end.

(* The first output whose type implements error, util.go:74-79. *)
Fixpoint first_error (outs : list gout) : option (option string) :=
  match outs with
  | [] => None
  | GError e :: _ => Some e
  | GValue _ :: r => first_error r
  end.
(* The first output that is not the one found above, util.go:93-99. *)
Fixpoint first_value (skipped : bool) (outs : list gout) : option gout :=
  match outs with
  | [] => None
  | GError e :: r => if skipped then Some (GError e) else first_value true r
  | o :: _ => Some o
  end.

(* callToCty after the arguments are evaluated, util.go:68-101.  A null argument is a nil
   interface, whose reflect.Value is the zero Value, which Call refuses with a panic; so does
   NumIn of something that is not a function.  A second output of type error is an interface
   value, which gocty cannot convert. *)
Definition is_nil (v : native) : bool := match v with NNil => true | _ => false end.
Definition call_outputs (outs : list gout) : result CtyModel.cval :=
  match first_error outs with
  | Some (Some m) => Err m                                                      (* 85-87 *)
  | Some None =>
    if Nat.eqb (List.length outs) 1 then Ok (CObj []) else                      (* 88-90 *)
    match first_value false outs with
    | Some (GValue v) => Ok (native_to_cty norm v)
    | Some (GError None) => Ok (CObj [])          (* Interface() gives nil: 169-171 *)
    | Some (GError (Some m)) => Err "can't convert error"
    | None => Ok (CObj [])
    end
  | None =>
    match outs with
    | GValue v :: _ => Ok (native_to_cty norm v)
    | _ => Ok (CObj [])                                                         (* 101 *)
    end
  end.
Definition call_go (g : gofunc) (args : list native) : result CtyModel.cval :=
  match g with
  | GoOther => Panic "NumIn of non-func type"
  | GoFunc n run =>
    if negb (Nat.eqb n (List.length args)) then Err "wrong number of arguments" else
    if existsb is_nil args then Panic "Call using zero Value argument" else
    do outs <- run args; call_outputs outs
  end.

(* ExpressionToCty, util.go:104-166, and the argument loop of callToCty, util.go:40-67.
   The variables are those of the whole tree of ref, whatever node is being decoded. *)
Fixpoint expr_to_cty (vars : option (list (string * CtyModel.cval))) (fs : funcs) (e : vexpr)
  : result CtyModel.cval :=
  match e with
  | VTuple l =>                                                                 (* 110-119 *)
    do u <- (fix go l := match l with
             | [] => Ok []
             | e :: l' => do x <- expr_to_cty vars fs e; do r <- go l'; Ok (x :: r)
             end) l;
    Ok (CTup u)
  | VObj m =>                                                                   (* 120-133 *)
    do u <- (fix go m := match m with
             | [] => Ok []
             | (k, e) :: m' =>
               do kv <- eval vars None k;
               do x <- expr_to_cty vars fs e;
               do kt <- as_string kv;
               do r <- go m'; Ok ((kt, x) :: r)
             end) m;
    Ok (CObj (fold_left (fun h kv => insert (fst kv) (snd kv) h) u []))
  | VCall f args =>                                                             (* 142-159 *)
    match fs with
    | FNone => eval vars None e
    | _ =>
      if String.eqb f "null" then Ok CNull else                                 (* cty.NilVal *)
      match fs with
      | FHcl m => eval vars (Some m) e
      | FGo m =>
        if String.eqb f "" then Err "function call is empty" else
        match lookup f m with
        | None => Err "function call is not found"
        | Some g =>
          do u <- (fix go l := match l with
                   | [] => Ok []
                   | e :: l' =>
                     do cv <- expr_to_cty vars fs e; do x <- cty_to_native cv;
                     do r <- go l'; Ok (x :: r)
                   end) args;
          call_go g u
        end
      | _ => Err "function call is not a map"
      end
    end
  | _ => eval vars None e                                                       (* 161-165 *)
  end.

(* ----- the tree ----- *)

Notation theap := (heap CtyModel.cval).

(* Tree.Variables as an evaluation context: items are values, nodes are objects. *)
Fixpoint as_cty (v : TreeModel.cval CtyModel.cval) : CtyModel.cval :=
  match v with
  | CItem x => x
  | CObject fs => CObj (map (fun kv => (fst kv, as_cty (snd kv))) fs)
  end.

(* The variables of ref["attributes"], util.go:138-140; the root is a pointer to the tree
   of ref, None if ref has none. *)
Definition ctx_vars (h : theap) (root : option nat) : result (option (list (string * CtyModel.cval))) :=
  match root with
  | None => Ok None
  | Some r => match unfold_tree (List.length h) h r with
              | None => Panic "nil pointer"
              | Some t => Ok (Some (map (fun kv => (fst kv, as_cty (snd kv))) (variables t)))
              end
  end.

Definition eval_at (h : theap) (root : option nat) (fs : funcs) (e : vexpr) : result CtyModel.cval :=
  do vars <- ctx_vars h root; expr_to_cty vars fs e.

Definition node_of {A} (o : option A) : result A :=
  match o with Some x => Ok x | None => Panic "nil pointer" end.

Variable root : option nat.
Variable fs : funcs.

(* ----- decoding into maps and lists ----- *)

(* fmt.Sprintf("%v", dex) *)
Definition index_name (i : nat) : string := dec_N (N.of_nat i).

(* expressionToNative with decodeSlice and decodeObjectConsExpr, mapslice.go:13-32, 147-205. *)
Fixpoint expr_to_native (h : theap) (p : nat) (key : string) (e : vexpr) : result (theap * native) :=
  match e with
  | VTuple l =>                                                                 (* 175-179 *)
    do hc <- node_of (add_node h p key);
    let (h1, c) := hc : theap * nat in
    do u <- (fix go h i l := match l with
             | [] => Ok (h, [])
             | e :: l' =>
               do hx <- expr_to_native h c (index_name i) e;
               do r <- go (fst hx) (S i) l';
               Ok (fst r, snd hx :: snd r)
             end) h1 0 l;
    Ok (fst u, match snd u with [] => NNilList | _ => NList (snd u) end)
  | VObj m =>                                                                   (* 180-184 *)
    do hc <- node_of (add_node h p key);
    let (h1, c) := hc : theap * nat in
    do u <- (fix go h m := match m with
             | [] => Ok (h, [])
             | (k, e) :: m' =>
               do kv <- eval None None k;
               do kt <- as_string kv;
               do hx <- expr_to_native h c kt e;
               do r <- go (fst hx) m';
               Ok (fst r, (kt, snd hx) :: snd r)
             end) h1 m;
    Ok (fst u, NMap (fold_left (fun h kv => insert (fst kv) (snd kv) h) (snd u) []))
  | _ =>
    if match e with VCall f _ => String.eqb f "null" | _ => false end then Ok (h, NNil)  (* 185-188 *)
    else
    do cv <- eval_at h root fs e;                                               (* 192-195 *)
    do h1 <- node_of (add_item h p key cv);                                     (* 202 *)
    do x <- cty_to_native cv;
    Ok (h1, x)
  end.

(* The orders in which the loops over maps run: for the loop numbered [site] of the body or
   group at node [p], the keys in the order they are visited. *)
Definition order : Type := nat -> nat -> list string -> list string.
Variable ord : order.

(* for key, a := range m: the entries in the order of the loop; an assignment to a map per
   entry, listed here in the order of m whatever the order of the loop was. *)
Fixpoint visit {A B} (f : theap -> string -> A -> result (theap * B)) (m : list (string * A))
  (ks : list string) (h : theap) : result (theap * list (string * B)) :=
  match ks with
  | [] => Ok (h, [])
  | k :: ks' =>
    match lookup k m with
    | None => visit f m ks' h
    | Some a => do hx <- f h k a; do r <- visit f m ks' (fst hx); Ok (fst r, (k, snd hx) :: snd r)
    end
  end.
Definition relist {B} (ks : list string) (m : list (string * B)) : list (string * B) :=
  flat_map (fun k => match lookup k m with Some x => [(k, x)] | None => [] end) ks.
Definition range {A B} (p site : nat) (f : theap -> string -> A -> result (theap * B))
  (m : list (string * A)) (h : theap) : result (theap * list (string * B)) :=
  do r <- visit f m (ord p site (keys m)) h;
  Ok (fst r, relist (keys m) (snd r)).

(* A block body as it will be decoded: tree and node to result. *)
Definition dec : Type := theap -> nat -> result (theap * native).

(* The three groupings, mapslice.go:57-91. *)
Definition g_slice (bs : list (string * list string * dec)) : list (string * list dec) :=
  fold_left (fun m b => match b with (t, [], d) => add_list t d m | _ => m end) bs [].
Definition g_map (bs : list (string * list string * dec)) : list (string * list (string * dec)) :=
  fold_left (fun m b => match b with
    | (t, [l], d) => insert t (insert l d (get_or m t)) m
    | _ => m end) bs [].
Definition g_map2 (bs : list (string * list string * dec))
  : list (string * list (string * list (string * dec))) :=
  fold_left (fun m b => match b with
    | (t, [l1; l2], d) =>
      let mt := get_or m t in insert t (insert l1 (insert l2 d (get_or mt l1)) mt) m
    | _ => m end) bs [].

Definition many_labels (b : string * list string * dec) : bool :=
  Nat.ltb 2 (List.length (snd (fst b))).

(* The bodies of one type without labels, mapslice.go:94-108. *)
Fixpoint slice_go (h : theap) (c i : nat) (ds : list dec) : result (theap * list native) :=
  match ds with
  | [] => Ok (h, [])
  | d :: ds' =>
    do hs <- node_of (add_node h c (index_name i));
    do hx <- d (fst hs) (snd hs);
    do r <- slice_go (fst hx) c (S i) ds';
    Ok (fst r, snd hx :: snd r)
  end.
Definition do_slice (p : nat) (h : theap) (key : string) (ds : list dec) : result (theap * native) :=
  do hc <- node_of (add_node h p key);
  do r <- slice_go (fst hc) (snd hc) 0 ds;
  Ok (fst r, match snd r with [x] => x | _ => NList (snd r) end).

(* The bodies of one type with one label, mapslice.go:112-122. *)
Definition do_label (c : nat) (h : theap) (k : string) (d : dec) : result (theap * native) :=
  do hs <- node_of (add_node h c k); d (fst hs) (snd hs).
Definition do_map (p site : nat) (h : theap) (key : string) (m : list (string * dec))
  : result (theap * native) :=
  do hc <- node_of (add_node h p key);
  do r <- range (snd hc) site (do_label (snd hc)) m (fst hc);
  Ok (fst r, NMap (snd r)).

(* The bodies of one type with two labels, mapslice.go:126-141. *)
Definition do_map2 (p : nat) (h : theap) (key : string) (m : list (string * list (string * dec)))
  : result (theap * native) :=
  do hc <- node_of (add_node h p key);
  do r <- range (snd hc) 5 (do_map (snd hc) 6) m (fst hc);
  Ok (fst r, NMap (snd r)).

(* decodeBody, mapslice.go:47-145 *)
Definition decode_with (attrs : list (string * vexpr)) (bs : list (string * list string * dec)) : dec :=
  fun h p =>
  do a <- range p 0 (fun h k e => expr_to_native h p k e) attrs h;              (* 49-55 *)
  if existsb many_labels bs then Err "not resolvable" else                      (* 88-89 *)
  do s <- range p 1 (do_slice p) (g_slice bs) (fst a);                          (* 93-109 *)
  do m <- range p 2 (do_map p 3) (g_map bs) (fst s);                            (* 111-123 *)
  do m2 <- range p 4 (do_map2 p) (g_map2 bs) (fst m);                           (* 125-142 *)
  Ok (fst m2, NMap (fold_left (fun o kv => insert (fst kv) (snd kv) o)
                      (snd s ++ snd m ++ snd m2) (snd a))).

Fixpoint decode_vbody (b : vbody) : dec :=
  match b with
  | VBody attrs blocks =>
    decode_with attrs
      ((fix go l := match l with
        | [] => []
        | (t, ls, b) :: l' => (t, ls, decode_vbody b) :: go l'
        end) blocks)
  end.

(* ----- decoding into structs: the tree part ----- *)

(* The attributes that go to fields of type map[string]interface{} or []interface{} are decoded
   once more into the same node, unmarshal.go:188-218 with mapslice.go:13-45. *)
Fixpoint tuple_into (h : theap) (c i : nat) (l : list vexpr) : result (theap * list native) :=
  match l with
  | [] => Ok (h, [])
  | e :: l' =>
    do hx <- expr_to_native h c (index_name i) e;
    do r <- tuple_into (fst hx) c (S i) l';
    Ok (fst r, snd hx :: snd r)
  end.
Fixpoint obj_into (h : theap) (c : nat) (m : list (vexpr * vexpr))
  : result (theap * list (string * native)) :=
  match m with
  | [] => Ok (h, [])
  | (k, e) :: m' =>
    do kv <- eval None None k;
    do kt <- as_string kv;
    do hx <- expr_to_native h c kt e;
    do r <- obj_into (fst hx) c m';
    Ok (fst r, (kt, snd hx) :: snd r)
  end.
Definition again_into (h : theap) (p : nat) (e : vexpr) : result theap :=
  match e with
  | VTuple l => do r <- tuple_into h p 0 l; Ok (fst r)
  | VObj m => do r <- obj_into h p m; Ok (fst r)
  | _ => Err "not resolvable"
  end.

(* for k, v := range bd.Attributes, unmarshal.go:117-127: values by name. *)
Definition struct_attrs (p : nat) (attrs : list (string * vexpr)) (h : theap)
  : result (theap * list (string * CtyModel.cval)) :=
  range p 0 (fun h k e => do cv <- eval_at h root fs e;
                          do h1 <- node_of (add_item h p k cv); Ok (h1, cv)) attrs h.

(* for _, block := range bd.Blocks, unmarshal.go:129-131 *)
Fixpoint struct_nodes (p : nat) (blocks : list (string * list string)) (h : theap) : result theap :=
  match blocks with
  | [] => Ok h
  | (t, ls) :: r => do hc <- node_of (add_nodes h p t ls); struct_nodes p r (fst hc)
  end.
End Eval.

(* What decoding a body into a struct evaluates: the values of its attributes by name, and the
   same for the blocks that were decoded, by their position in the body. *)
Inductive sres := SRes (vals : list (string * CtyModel.cval)) (subs : list (nat * sres)).

Section Struct.
Variable norm : string -> string.
Variable to_text : CtyModel.cval -> result string.
Variable binary : string -> CtyModel.cval -> CtyModel.cval -> result CtyModel.cval.
Variable root : option nat.
Variable fs : funcs.
(* The choices made elsewhere, for the body at a position in the document (the positions of
   the blocks that enclose it): the order of the loop over its attributes, the attributes that
   are decoded once more, and the blocks that are decoded, in that order; which blocks and
   attributes these are depends on the types, unmarshal.go:132-135, 220-443. *)
Variable sord : list nat -> list string -> list string.
Variable again : list nat -> list string.
Variable pick : list nat -> list nat.

Definition sdec : Type := list nat -> heap CtyModel.cval -> nat -> result (heap CtyModel.cval * sres).

(* unmarshal.go:186-218 *)
Fixpoint do_again (h : heap CtyModel.cval) (p : nat) (attrs : list (string * vexpr)) (ks : list string)
  : result (heap CtyModel.cval) :=
  match ks with
  | [] => Ok h
  | k :: ks' =>
    match lookup k attrs with
    | None => do_again h p attrs ks'
    | Some e => do h1 <- again_into norm to_text binary root fs h p e; do_again h1 p attrs ks'
    end
  end.

(* unmarshal.go:220-443: subnode := node.GetNode(tag, block.Labels...), then the block. *)
Fixpoint do_blocks (at_ : list nat) (h : heap CtyModel.cval) (p : nat)
  (bs : list (string * list string * sdec)) (is : list nat) : result (heap CtyModel.cval * list (nat * sres)) :=
  match is with
  | [] => Ok (h, [])
  | i :: is' =>
    match nth_error bs i with
    | None => do_blocks at_ h p bs is'
    | Some (t, ls, d) =>
      do c <- node_of (get_node h p t ls);
      do hx <- d (at_ ++ [i]) h c;
      do r <- do_blocks at_ (fst hx) p bs is';
      Ok (fst r, (i, snd hx) :: snd r)
    end
  end.

(* UnmarshalSpecTree on structs as far as it evaluates and touches the tree,
   unmarshal.go:110-443. *)
Fixpoint struct_decode (b : vbody) : sdec :=
  fun at_ h p =>
  match b with
  | VBody attrs blocks =>
    do a <- struct_attrs norm to_text binary root fs (fun _ _ => sord at_) p attrs h;
    do h2 <- struct_nodes p (map fst blocks) (fst a);
    do h3 <- do_again h2 p attrs (again at_);
    do s <- do_blocks at_ h3 p
      ((fix go l := match l with
        | [] => []
        | (t, ls, b) :: l' => (t, ls, struct_decode b) :: go l'
        end) blocks) (pick at_);
    Ok (fst s, SRes (snd a) (snd s))
  end.
End Struct.

(* ----- several documents with one reference map ----- *)

(* UnmarshalSpec keeps its tree in ref["attributes"], utils/tree.go:37-42, so the next call with
   the same map starts from the tree of the last one. *)
Inductive call :=
| CallMap (ord : order) (b : vbody)
| CallStruct (sord : list nat -> list string -> list string) (again : list nat -> list string)
    (pick : list nat -> list nat) (b : vbody).
Inductive answer := AMap (x : native) | AStruct (s : sres).

Section Calls.
Variable norm : string -> string.
Variable to_text : CtyModel.cval -> result string.
Variable binary : string -> CtyModel.cval -> CtyModel.cval -> result CtyModel.cval.
Variable root : option nat.
Variable fs : funcs.

Definition run_call (c : call) (h : heap CtyModel.cval) (p : nat) : result (heap CtyModel.cval * answer) :=
  match c with
  | CallMap ord b =>
    do r <- decode_vbody norm to_text binary root fs ord b h p; Ok (fst r, AMap (snd r))
  | CallStruct sord again pick b =>
    do r <- struct_decode norm to_text binary root fs sord again pick b [] h p; Ok (fst r, AStruct (snd r))
  end.
Fixpoint run_calls (l : list call) (h : heap CtyModel.cval) (p : nat) : result (heap CtyModel.cval * list answer) :=
  match l with
  | [] => Ok (h, [])
  | c :: l' =>
    do r <- run_call c h p;
    do r' <- run_calls l' (fst r) p;
    Ok (fst r', snd r :: snd r')
  end.
End Calls.
