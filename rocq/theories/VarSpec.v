(* What references and calls in a document should mean, independently of the tree: a reference
   names an attribute of a body that encloses it, by the absolute path of that attribute, and
   stands for the value of that attribute.  No tree, no order of evaluation.

   Shared with the model: the syntax of expressions and bodies, the values with their Go form
   (cty_to_native), and the functions of libraries that are parameters there too. *)

From Verif Require Import Base CtyModel HclModel VarModel.

(* Absolute names of attributes with their values. *)
Definition env : Type := list (list string * CtyModel.cval).

(* A step that spells a name. *)
Inductive spells : step -> string -> Prop :=
| sp_attr : forall n, spells (SAttr n) n
| sp_key : forall n, spells (SKey n) n
| sp_index : forall z, spells (SIndex z) (dec_Z z).

(* root.steps names the attribute [names], and goes on with [rest] inside its value. *)
Inductive refers : string -> list step -> list string -> list step -> Prop :=
| ref_var : forall pre names rest, Forall2 spells pre names -> refers "var" (pre ++ rest) names rest
| ref_bare : forall n pre names rest, n <> "var" -> Forall2 spells pre names ->
    refers n (pre ++ rest) (n :: names) rest.

(* Steps inside a value. *)
Inductive inside : CtyModel.cval -> list step -> CtyModel.cval -> Prop :=
| in_here : forall v, inside v [] v
| in_field : forall m s n x rest v, spells s n -> lookup n m = Some x -> inside x rest v ->
    inside (CObj m) (s :: rest) v
| in_element : forall l n x rest v, nth_error l n = Some x -> inside x rest v ->
    inside (CTup l) (SIndex (Z.of_nat n) :: rest) v.

(* Where an expression stands: as a value of its own (or an element of a tuple or object that
   is one), inside an operator or template, or inside the arguments of a call. *)
Inductive place := Whole | Operand | Argument.
Definition within (pl : place) : place := match pl with Whole => Operand | _ => pl end.

(* The texts of a template, joined. *)
Fixpoint joined (l : list string) : string := match l with [] => "" | s :: l' => s +++ joined l' end.

(* Values that are not tuples, objects or null(). *)
Definition plain (e : vexpr) : bool :=
  match e with
  | VTuple _ | VObj _ => false
  | VCall f _ => negb (String.eqb f "null")
  | _ => true
  end.

Definition list_of (xs : list native) : native := match xs with [] => NNilList | _ => NList xs end.
Definition one_or_list (xs : list native) : native := match xs with [x] => x | _ => NList xs end.

(* The blocks of a body, by type and number of labels. *)
Definition blocks : Type := list (string * list string * vbody).
Fixpoint bare (t : string) (bs : blocks) : list vbody :=
  match bs with
  | [] => []
  | (t', [], b) :: r => if string_dec t t' then b :: bare t r else bare t r
  | _ :: r => bare t r
  end.
Fixpoint labelled (t : string) (bs : blocks) : list (string * vbody) :=
  match bs with
  | [] => []
  | (t', [l], b) :: r => if string_dec t t' then (l, b) :: labelled t r else labelled t r
  | _ :: r => labelled t r
  end.
Fixpoint paired (t l1 : string) (bs : blocks) : list (string * vbody) :=
  match bs with
  | [] => []
  | (t', [l; l2], b) :: r =>
    if string_dec t t' then if string_dec l1 l then (l2, b) :: paired t l1 r else paired t l1 r
    else paired t l1 r
  | _ :: r => paired t l1 r
  end.
(* Names in order of first appearance. *)
Fixpoint firsts (l : list string) : list string :=
  match l with
  | [] => []
  | a :: r => a :: filter (fun b => if string_dec a b then false else true) (firsts r)
  end.
Definition types (n : nat) (bs : blocks) : list string :=
  firsts (map (fun b => fst (fst b)) (filter (fun b => Nat.eqb (List.length (snd (fst b))) n) bs)).
Fixpoint firsts_of (t : string) (bs : blocks) : list string :=
  match bs with
  | [] => []
  | (t', [l1; _], _) :: r => if string_dec t t' then l1 :: firsts_of t r else firsts_of t r
  | _ :: r => firsts_of t r
  end.

(* What the outputs of a Go function say: an output of type error that is not nil, or the first
   output that is not of type error.  At most one output is of type error. *)
Definition is_error (o : gout) : bool := match o with GError _ => true | GValue _ => false end.
Inductive outcome (norm : string -> string) : list gout -> result CtyModel.cval -> Prop :=
| oc_error : forall l m l', Forall (fun o => is_error o = false) (l ++ l') ->
    outcome norm (l ++ GError (Some m) :: l') (Err m)
| oc_value : forall l v l', (l = [] \/ l = [GError None]) ->
    (forall e, In (GError e) l' -> l = [] /\ e = None) ->
    outcome norm (l ++ GValue v :: l') (Ok (native_to_cty norm v))
| oc_nothing : forall l, (l = [] \/ l = [GError None]) -> outcome norm l (Ok (CObj [])).

Section Spec.
Variable norm : string -> string.
Variable to_text : CtyModel.cval -> result string.
Variable binary : string -> CtyModel.cval -> CtyModel.cval -> result CtyModel.cval.
Variable fs : funcs.

(* In environment g, the expression e at that place has the value v.  A call may stand as a
   value of its own, and inside the arguments of another call.  Object keys are texts.  A Go
   function gets the Go data of the arguments, none of which may be null. *)
Inductive means (g : env) : place -> vexpr -> CtyModel.cval -> Prop :=
| me_num : forall pl z, means g pl (VNum z) (CNum (mkD z 0))
| me_dec : forall pl m k, means g pl (VDec m k) (CNum (decimal m k))
| me_str : forall pl s, means g pl (VStr s) (CStr s)
| me_bool : forall pl b, means g pl (VBool b) (CBool b)
| me_null : forall pl, means g pl VNull CNull
| me_ref : forall pl root steps names rest x v, In (names, x) g -> refers root steps names rest ->
    inside x rest v -> means g pl (VRef root steps) v
| me_tpl : forall pl parts vs ts, all_mean g (within pl) parts vs ->
    Forall2 (fun v t => to_text v = Ok t) vs ts -> means g pl (VTpl parts) (CStr (joined ts))
| me_bin : forall pl o a b x y v, means g (within pl) a x -> means g (within pl) b y ->
    binary o x y = Ok v -> means g pl (VBin o a b) v
| me_tuple : forall pl l vs, all_mean g pl l vs -> means g pl (VTuple l) (CTup vs)
| me_obj : forall pl ks es vs, List.length ks = List.length es -> NoDup ks -> all_mean g pl es vs ->
    (pl <> Whole -> forall k, In k ks -> to_text (CStr k) = Ok k) ->
    means g pl (VObj (combine (map VStr ks) es)) (CObj (combine ks vs))
| me_call : forall pl funs f args f' vs v, fs = FHcl funs -> pl <> Operand -> (pl = Whole -> f <> "null") ->
    lookup f funs = Some f' -> all_mean g Argument args vs -> f' vs = Ok v -> means g pl (VCall f args) v
| me_go : forall funs f args n run vs xs outs v, fs = FGo funs -> f <> "null" -> f <> "" ->
    lookup f funs = Some (GoFunc n run) -> all_mean g Whole args vs ->
    Forall2 (fun v x => cty_to_native v = Ok x /\ x <> NNil) vs xs -> List.length args = n ->
    run xs = Ok outs -> outcome norm outs (Ok v) -> means g Whole (VCall f args) v
| me_null_call : forall args, fs <> FNone -> means g Whole (VCall "null" args) CNull
with all_mean (g : env) : place -> list vexpr -> list CtyModel.cval -> Prop :=
| am_nil : forall pl, all_mean g pl [] []
| am_cons : forall pl e l v vs, means g pl e v -> all_mean g pl l vs -> all_mean g pl (e :: l) (v :: vs).

(* The Go data an expression stands for. *)
Inductive gives (g : env) : vexpr -> native -> Prop :=
| gi_tuple : forall l xs, all_give g l xs -> gives g (VTuple l) (list_of xs)
| gi_obj : forall ks es xs, List.length ks = List.length es -> NoDup ks -> all_give g es xs ->
    gives g (VObj (combine (map VStr ks) es)) (NMap (combine ks xs))
| gi_null_call : forall args, gives g (VCall "null" args) NNil
| gi_value : forall e v x, plain e = true -> means g Whole e v -> cty_to_native v = Ok x -> gives g e x
with all_give (g : env) : list vexpr -> list native -> Prop :=
| ag_nil : all_give g [] []
| ag_cons : forall e l x xs, gives g e x -> all_give g l xs -> all_give g (e :: l) (x :: xs).

(* The attributes of the body at path P: their data, and the names the body adds to the
   environment of the bodies inside it.  They do not see each other. *)
Inductive attrs_give (g : env) (P : list string)
  : list (string * vexpr) -> list (string * native) -> env -> Prop :=
| at_nil : attrs_give g P [] [] []
| at_value : forall k e v x l xs g', plain e = true -> means g Whole e v -> cty_to_native v = Ok x ->
    attrs_give g P l xs g' -> attrs_give g P ((k, e) :: l) ((k, x) :: xs) ((P ++ [k], v) :: g')
| at_other : forall k e x l xs g', plain e = false -> gives g e x ->
    attrs_give g P l xs g' -> attrs_give g P ((k, e) :: l) ((k, x) :: xs) g'.

(* The Go data of the body at path P in environment g.  Blocks without labels are numbered and
   give one map or a list of maps; blocks with one or two labels give maps of maps.  A Go map
   is listed here as attributes, then types by number of labels, in order of appearance. *)
Inductive body_gives : env -> list string -> vbody -> native -> Prop :=
| bg : forall g P attrs bs xs g' s m m2,
    NoDup (map fst attrs ++ types 0 bs ++ types 1 bs ++ types 2 bs) ->
    Forall (fun b => List.length (snd (fst b)) <= 2) bs ->
    attrs_give g P attrs xs g' ->
    bares_give (g' ++ g) P bs (types 0 bs) s ->
    maps_give (g' ++ g) P bs (types 1 bs) m ->
    map2s_give (g' ++ g) P bs (types 2 bs) m2 ->
    body_gives g P (VBody attrs bs) (NMap (xs ++ s ++ m ++ m2))
with bares_give : env -> list string -> blocks -> list string -> list (string * native) -> Prop :=
| bs_nil : forall g P bs, bares_give g P bs [] []
| bs_cons : forall g P bs t ts xs r, numbered_give g (P ++ [t]) 0 (bare t bs) xs ->
    bares_give g P bs ts r -> bares_give g P bs (t :: ts) ((t, one_or_list xs) :: r)
with numbered_give : env -> list string -> nat -> list vbody -> list native -> Prop :=
| nu_nil : forall g P i, numbered_give g P i [] []
| nu_cons : forall g P i b l x xs, body_gives g (P ++ [index_name i]) b x ->
    numbered_give g P (S i) l xs -> numbered_give g P i (b :: l) (x :: xs)
with maps_give : env -> list string -> blocks -> list string -> list (string * native) -> Prop :=
| ms_nil : forall g P bs, maps_give g P bs [] []
| ms_cons : forall g P bs t ts xs r, NoDup (map fst (labelled t bs)) ->
    labels_give g (P ++ [t]) (labelled t bs) xs ->
    maps_give g P bs ts r -> maps_give g P bs (t :: ts) ((t, NMap xs) :: r)
with labels_give : env -> list string -> list (string * vbody) -> list (string * native) -> Prop :=
| la_nil : forall g P, labels_give g P [] []
| la_cons : forall g P l b r x xs, body_gives g (P ++ [l]) b x -> labels_give g P r xs ->
    labels_give g P ((l, b) :: r) ((l, x) :: xs)
with map2s_give : env -> list string -> blocks -> list string -> list (string * native) -> Prop :=
| m2_nil : forall g P bs, map2s_give g P bs [] []
| m2_cons : forall g P bs t ts xs r, pairs_give g (P ++ [t]) t bs (firsts (firsts_of t bs)) xs ->
    map2s_give g P bs ts r -> map2s_give g P bs (t :: ts) ((t, NMap xs) :: r)
with pairs_give : env -> list string -> string -> blocks -> list string -> list (string * native) -> Prop :=
| pa_nil : forall g P t bs, pairs_give g P t bs [] []
| pa_cons : forall g P t bs l ls xs r, NoDup (map fst (paired t l bs)) ->
    labels_give g (P ++ [l]) (paired t l bs) xs ->
    pairs_give g P t bs ls r -> pairs_give g P t bs (l :: ls) ((l, NMap xs) :: r).

(* ----- which names a document uses ----- *)

(* Decoding the value e of the name k at path P stores a value under k' at path Q. *)
Inductive expr_item : list string -> string -> vexpr -> list string -> string -> Prop :=
| ei_plain : forall P k e, plain e = true -> expr_item P k e P k
| ei_tuple : forall P k l i e Q k', nth_error l i = Some e ->
    expr_item (P ++ [k]) (index_name i) e Q k' -> expr_item P k (VTuple l) Q k'
| ei_obj : forall P k m n e Q k', In (VStr n, e) m ->
    expr_item (P ++ [k]) n e Q k' -> expr_item P k (VObj m) Q k'.

(* The blocks of the body at path P, with their paths. *)
Inductive block_at : list string -> vbody -> list string -> vbody -> Prop :=
| ba_bare : forall P attrs bs t i b, nth_error (bare t bs) i = Some b ->
    block_at P (VBody attrs bs) (P ++ [t; index_name i]) b
| ba_label : forall P attrs bs t l b, In (l, b) (labelled t bs) ->
    block_at P (VBody attrs bs) (P ++ [t; l]) b
| ba_pair : forall P attrs bs t l1 l2 b, In (l2, b) (paired t l1 bs) ->
    block_at P (VBody attrs bs) (P ++ [t; l1; l2]) b.

Inductive inner (block : list string -> vbody -> list string -> vbody -> Prop)
  : list string -> vbody -> list string -> vbody -> Prop :=
| inn_here : forall P b, inner block P b P b
| inn_down : forall P b R c Q d, block P b R c -> inner block R c Q d -> inner block P b Q d.

(* The names of values and of bodies in the document b, with the values given beforehand. *)
Definition value_at (given : list (string * CtyModel.cval)) (b : vbody) (Q : list string) (k : string) : Prop :=
  (Q = [] /\ In k (map fst given)) \/
  exists R c n e, inner block_at [] b R c /\ In (n, e) (vb_attrs c) /\ expr_item R n e Q k.
Definition body_at (b : vbody) (R : list string) : Prop := exists c, inner block_at [] b R c.

(* No value has the name of something a path goes through, and nothing is called var. *)
Definition well_named (values : list string -> string -> Prop) (bodies : list string -> Prop) : Prop :=
  (forall Q k R rest, values Q k -> bodies R -> R <> Q ++ k :: rest) /\
  (forall Q k, values Q k -> k <> "var") /\
  (forall R, bodies R -> ~ In "var" R).

(* The names given beforehand. *)
Definition given_env (given : list (string * CtyModel.cval)) : env :=
  map (fun kv => ([fst kv], snd kv)) given.

(* ----- structs ----- *)

(* Fields of type map[string]interface{} and []interface{} store their elements in the node of
   the body itself. *)
Inductive again_item : list string -> vexpr -> list string -> string -> Prop :=
| ai_tuple : forall P l i e Q k', nth_error l i = Some e ->
    expr_item P (index_name i) e Q k' -> again_item P (VTuple l) Q k'
| ai_obj : forall P m n e Q k', In (VStr n, e) m ->
    expr_item P n e Q k' -> again_item P (VObj m) Q k'.
Definition container (e : vexpr) : bool := match e with VTuple _ | VObj _ => true | _ => false end.

(* The values of the attributes of the body at path P. *)
Inductive attrs_mean (g : env) (P : list string)
  : list (string * vexpr) -> list (string * CtyModel.cval) -> env -> Prop :=
| sa_nil : attrs_mean g P [] [] []
| sa_cons : forall k e v l vs g', means g Whole e v -> attrs_mean g P l vs g' ->
    attrs_mean g P ((k, e) :: l) ((k, v) :: vs) ((P ++ [k], v) :: g').

(* The values in a document, block by block; again names the attributes of a body that go to
   such fields. *)
Inductive values (again : list nat -> list string) : env -> list nat -> list string -> vbody -> sres -> Prop :=
| va : forall g at_ P attrs bs vs g' ss,
    NoDup (map fst attrs) -> attrs_mean g P attrs vs g' ->
    (forall k e, In k (again at_) -> In (k, e) attrs ->
       container e = true /\ (exists x, gives g e x) /\
       (forall k', again_item P e P k' -> ~ In k' (map fst attrs))) ->
    all_values again (g' ++ g) at_ P 0 bs ss ->
    values again g at_ P (VBody attrs bs) (SRes vs ss)
with all_values (again : list nat -> list string)
  : env -> list nat -> list string -> nat -> blocks -> list (nat * sres) -> Prop :=
| av_nil : forall g at_ P i, all_values again g at_ P i [] []
| av_cons : forall g at_ P i t ls b r s ss, t <> "" -> values again g (at_ ++ [i]) (P ++ t :: ls) b s ->
    all_values again g at_ P (S i) r ss -> all_values again g at_ P i ((t, ls, b) :: r) ((i, s) :: ss).

(* The values of the blocks that are decoded, pick naming them for each body. *)
Inductive picked (pick : list nat -> list nat) : list nat -> sres -> sres -> Prop :=
| pi : forall at_ vs ss ts, all_picked pick at_ ss (pick at_) ts -> picked pick at_ (SRes vs ss) (SRes vs ts)
with all_picked (pick : list nat -> list nat)
  : list nat -> list (nat * sres) -> list nat -> list (nat * sres) -> Prop :=
| pi_nil : forall at_ ss, all_picked pick at_ ss [] []
| pi_none : forall at_ ss i is ts, (forall s, ~ In (i, s) ss) -> all_picked pick at_ ss is ts ->
    all_picked pick at_ ss (i :: is) ts
| pi_some : forall at_ ss i is s t ts, In (i, s) ss -> picked pick (at_ ++ [i]) s t ->
    all_picked pick at_ ss is ts -> all_picked pick at_ ss (i :: is) ((i, t) :: ts).

Inductive struct_block : list nat * list string -> vbody -> list nat * list string -> vbody -> Prop :=
| sb : forall at_ P attrs bs i t ls b, nth_error bs i = Some (t, ls, b) ->
    struct_block (at_, P) (VBody attrs bs) (at_ ++ [i], P ++ t :: ls) b.
Inductive struct_inner : list nat * list string -> vbody -> list nat * list string -> vbody -> Prop :=
| si_here : forall P b, struct_inner P b P b
| si_down : forall P b R c Q d, struct_block P b R c -> struct_inner R c Q d -> struct_inner P b Q d.
Definition struct_value_at (again : list nat -> list string) (given : list (string * CtyModel.cval))
  (b : vbody) (Q : list string) (k : string) : Prop :=
  (Q = [] /\ In k (map fst given)) \/
  exists at_ R c n e, struct_inner ([], []) b (at_, R) c /\ In (n, e) (vb_attrs c) /\
    ((Q = R /\ k = n) \/ (In n (again at_) /\ again_item R e Q k)).
Definition struct_body_at (b : vbody) (R : list string) : Prop :=
  exists at_ c, struct_inner ([], []) b (at_, R) c.

(* ----- several documents ----- *)

(* What a call says by itself, with the values given beforehand. *)
Inductive answers (given : list (string * CtyModel.cval)) : call -> answer -> Prop :=
| an_map : forall ord b x, (forall p site ks, Permutation ks (ord p site ks)) ->
    (forall k, In k (map fst given) -> ~ In k (map fst (vb_attrs b))) ->
    body_gives (given_env given) [] b x -> answers given (CallMap ord b) (AMap x)
| an_struct : forall sord again pick b s s', (forall at_ ks, Permutation ks (sord at_ ks)) ->
    (forall k, In k (map fst given) -> ~ In k (map fst (vb_attrs b)) /\
       (forall n e, In n (again []) -> In (n, e) (vb_attrs b) -> ~ again_item [] e [] k)) ->
    values again (given_env given) [] [] b s -> picked pick [] s s' ->
    answers given (CallStruct sord again pick b) (AStruct s').

(* The names all calls use. *)
Definition call_value_at (given : list (string * CtyModel.cval)) (l : list call) (Q : list string) (k : string) : Prop :=
  (Q = [] /\ In k (map fst given)) \/
  exists c, In c l /\ match c with
                     | CallMap _ b => value_at given b Q k
                     | CallStruct _ again _ b => struct_value_at again given b Q k
                     end.
Definition call_body_at (l : list call) (R : list string) : Prop :=
  exists c, In c l /\ match c with CallMap _ b => body_at b R | CallStruct _ _ _ b => struct_body_at b R end.
End Spec.
