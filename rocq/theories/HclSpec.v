(* What generic HCL marshalling and decoding should do. *)

From Verif Require Import Base CtyModel CtySpec HclModel.

(* ----- the supported data ----- *)

Fixpoint all_chars (p : ascii -> bool) (s : string) : bool :=
  match s with "" => true | String c s' => p c && all_chars p s' end.

(* An HCL identifier (ASCII). *)
Definition ident (s : string) : Prop :=
  match s with "" => False | String c s' => ident_start c = true /\ all_chars ident_char s' = true end.

(* A string that can stand between quotes as it is: printable ASCII without quote and
   backslash, with no dollar or percent sign before a brace or before another such sign. *)
Fixpoint quotable (s : string) : Prop :=
  match s with
  | "" => True
  | String c s' =>
    char_in 32 126 c = true /\ c <> """"%char /\ c <> "\"%char
    /\ (mark_char c = true ->
        match s' with "" => True | String d _ => d <> "{"%char /\ mark_char d = false end)
    /\ quotable s'
  end.

(* Keys that may be written in front of an equals sign or a brace. *)
Definition body_key (k : string) : Prop := ident k /\ k <> "NMRBRCKTNDTRMND".
Definition good_key (k : string) : Prop := ident k /\ k <> "for".

Definition zero_scalar (v : native) : Prop :=
  v = NStr "" \/ v = NBool false \/ v = NInt 0 \/ v = NInt64 0.

(* Fractions that six decimals hold: positive multiples of 1/64 in 24 bits. *)
Definition plain_fraction (d : dyadic) : Prop :=
  (0 < num d)%Z /\ ~ whole d /\ representable float32 d /\ exists n, (num d * 64 = n * pow2 (den d))%Z.

(* d is an integer of p bits times a power of two. *)
Definition bits (p : Z) (d : dyadic) : Prop :=
  exists n q : Z, (Z.abs n < 2 ^ p)%Z
    /\ (num d * 2 ^ Z.max 0 (- q) = n * 2 ^ Z.max 0 q * 2 ^ Z.of_nat (den d))%Z.

Inductive scalar : native -> Prop :=
| sc_str s : quotable s -> scalar (NStr s)
| sc_bool b : scalar (NBool b)
| sc_int z : in_int32 z -> scalar (NInt z)
| sc_int64 z : in_int64 z -> ~ in_int32 z -> scalar (NInt64 z)
| sc_f32 d : plain_fraction d -> scalar (NF32 d)
| sc_f64 d : plain_fraction d -> scalar (NF64 d).

Definition not_map (v : native) : Prop := forall m, v <> NMap m /\ v <> NNilMap.

(* Where a value stands: as a value in a body, as a list element, as a value in a map that is
   a list element, as a value in a map inside such a map. *)
Inductive place_of := InBody | InList | InObj | InFlat.

Inductive supported : place_of -> native -> Prop :=
| su_scalar p v : scalar v -> (p = InList -> ~ zero_scalar v) -> supported p v
| su_null p : p <> InList -> supported p NNil
| su_list p l : (forall v, In v l -> supported InList v) -> supported p (NList l)
| su_nil_elem : supported InList NNilList
| su_elem m : NoDup (keys m) -> (forall k v, In (k, v) m -> good_key k /\ supported InObj v) ->
    supported InList (NMap m)
| su_obj m : NoDup (keys m) -> (forall k v, In (k, v) m -> good_key k /\ supported InFlat v) ->
    supported InObj (NMap m)
(* a map that holds something else than maps, or nothing: a block *)
| su_block m : body_map m -> (m = [] \/ exists k v, In (k, v) m /\ not_map v) ->
    supported InBody (NMap m)
(* a map of such maps: blocks with one label *)
| su_block1 m : m <> [] -> NoDup (keys m) ->
    (forall k v, In (k, v) m -> quotable k /\ exists m', v = NMap m' /\ body_map m'
       /\ (m' = [] \/ exists k' v', In (k', v') m' /\ not_map v')) ->
    supported InBody (NMap m)
(* a map of maps of maps: blocks with two labels *)
| su_block2 m : m <> [] -> NoDup (keys m) ->
    (forall k v, In (k, v) m -> quotable k /\ exists m', v = NMap m' /\ m' <> [] /\ NoDup (keys m')
       /\ forall k' v', In (k', v') m' -> quotable k' /\ exists m'', v' = NMap m'' /\ body_map m'') ->
    supported InBody (NMap m)
with body_map : list (string * native) -> Prop :=
| bm m : NoDup (keys m) -> (forall k v, In (k, v) m -> body_key k /\ supported InBody v) ->
    body_map m.

(* The same data: maps are compared as maps, an empty list may come back as the nil slice,
   and a fraction as an equal float32. *)
Inductive same : native -> native -> Prop :=
| same_scalar v : scalar v -> same v v
| same_f32 d x : plain_fraction d -> same_num d x -> same (NF32 d) (NF32 x)
| same_f64 d x : plain_fraction d -> same_num d x -> same (NF64 d) (NF32 x)
| same_nil : same NNil NNil
| same_nillist : same NNilList NNilList
| same_empty : same (NList []) NNilList
| same_list l l' : l <> [] -> Forall2 same l l' -> same (NList l) (NList l')
| same_map m m' : NoDup (keys m) -> NoDup (keys m') ->
    (forall k, lookup k m = None <-> lookup k m' = None) ->
    (forall k v v', lookup k m = Some v -> lookup k m' = Some v' -> same v v') ->
    same (NMap m) (NMap m').

(* ----- the meaning of an HCL body as a Go map ----- *)

(* A decimal text for m / 10^k: digits, a point and k digits. *)
Fixpoint digits_from (z : Z) (s : string) : Z :=
  match s with "" => z | String c s' => digits_from (z * 10 + (Z.of_nat (nat_of_ascii c) - 48)) s' end.
Definition decimal_text (t : string) (m : Z) (k : nat) : Prop :=
  exists a b, t = a +++ "." +++ b /\ a <> "" /\ b <> "" /\ all_chars digit_char (a +++ b) = true
    /\ k = String.length b /\ m = digits_from 0 (a +++ b).

(* m is a nearest whole number of millionths to d. *)
Definition millionths (d : dyadic) (m : Z) : Prop :=
  (2 * Z.abs (num d * 1000000 - m * pow2 (den d)) <= pow2 (den d))%Z.

(* The last entry for a key. *)
Definition last_entry {A} (k : string) (m : list (string * A)) : option A := lookup k (rev m).

(* What a literal number becomes: an int if it is whole; the float32 of its float64 if the nearest float32
   is not below it; else its float64.  Beyond float32 it is infinite. *)
Inductive literal_native (d : dyadic) : native -> Prop :=
| ln_int z v : is_whole d z -> in_int64 z -> native_int z v -> literal_native d v
| ln_f32 n y x : ~ whole d -> (0 < num d)%Z -> nearest float32 n d -> representable float32 n -> le_num d n ->
    nearest float64 y d -> representable float64 y -> nearest float32 x y -> representable float32 x ->
    literal_native d (NF32 x)
| ln_f64 n y : ~ whole d -> (0 < num d)%Z -> nearest float32 n d -> representable float32 n -> lt_num n d ->
    nearest float64 y d -> representable float64 y -> literal_native d (NF64 y)
| ln_inf : ~ whole d -> le_num (mkD ((2 ^ 25 - 1) * 2 ^ 103) 0) d -> lt_num d (mkD (2 ^ 1024) 0) -> literal_native d NInf32.

Inductive expr_value : expr -> native -> Prop :=
| ev_num z v : in_int64 z -> native_int z v -> expr_value (ENum z) v
| ev_dec m k v : literal_native (decimal m k) v -> expr_value (EDec m k) v
| ev_str s : expr_value (EStr s) (NStr s)
| ev_bool b : expr_value (EBool b) (NBool b)
| ev_null : expr_value ENull NNil
| ev_call : expr_value (ECall "null") NNil
| ev_empty : expr_value (ETuple []) NNilList
| ev_tuple l l' : l <> [] -> Forall2 expr_value l l' -> expr_value (ETuple l) (NList l')
| ev_obj m m' : NoDup (keys m') ->
    (forall k, lookup k m' = None <-> last_entry k m = None) ->
    (forall k e v, last_entry k m = Some e -> lookup k m' = Some v -> expr_value e v) ->
    expr_value (EObj m) (NMap m').

Definition item_name (i : item) : string := match i with IAttr k _ => k | IBlock t _ _ => t end.
Definition named (k : string) (its : list item) : list item :=
  filter (fun i => if string_dec (item_name i) k then true else false) its.

(* The bodies of the blocks without labels, and the last body for given labels. *)
Fixpoint unlabelled (its : list item) : list (list item) :=
  match its with
  | [] => []
  | IBlock _ [] b :: r => b :: unlabelled r
  | _ :: r => unlabelled r
  end.
Fixpoint labelled1 (its : list item) : list (string * list item) :=
  match its with
  | [] => []
  | IBlock _ [l] b :: r => (l, b) :: labelled1 r
  | _ :: r => labelled1 r
  end.
Fixpoint labelled2 (its : list item) : list (string * (string * list item)) :=
  match its with
  | [] => []
  | IBlock _ [l1; l2] b :: r => (l1, (l2, b)) :: labelled2 r
  | _ :: r => labelled2 r
  end.
(* The second labels used with a first label, with their bodies. *)
Definition under (l1 : string) (bs : list (string * (string * list item))) : list (string * list item) :=
  map snd (filter (fun b => if string_dec (fst b) l1 then true else false) bs).

Definition few_labels (i : item) : Prop :=
  match i with IBlock _ ls _ => List.length ls <= 2 | _ => True end.

(* The value of a body, and of all the items with one name.  Where a name is used in several
   ways, blocks with two labels hide blocks with one, these hide blocks without labels, and
   these hide an attribute. *)
Inductive body_value : list item -> native -> Prop :=
| bv its obj : (forall i, In i its -> few_labels i) -> NoDup (keys obj) ->
    (forall k, lookup k obj = None <-> named k its = []) ->
    (forall k v, lookup k obj = Some v -> entry_value (named k its) v) ->
    body_value its (NMap obj)
with entry_value : list item -> native -> Prop :=
| en_attr k e v : expr_value e v -> entry_value [IAttr k e] v
| en_one its b v : labelled2 its = [] -> labelled1 its = [] -> unlabelled its = [b] ->
    body_value b v -> entry_value its v
| en_many its vs : labelled2 its = [] -> labelled1 its = [] -> 2 <= List.length (unlabelled its) ->
    Forall2 body_value (unlabelled its) vs -> entry_value its (NList vs)
| en_map its m : labelled2 its = [] -> labelled1 its <> [] -> NoDup (keys m) ->
    (forall l, lookup l m = None <-> last_entry l (labelled1 its) = None) ->
    (forall l b v, last_entry l (labelled1 its) = Some b -> lookup l m = Some v -> body_value b v) ->
    entry_value its (NMap m)
| en_map2 its m : labelled2 its <> [] -> NoDup (keys m) ->
    (forall l, lookup l m = None <-> under l (labelled2 its) = []) ->
    (forall l v, lookup l m = Some v -> second_value (under l (labelled2 its)) v) ->
    entry_value its (NMap m)
with second_value : list (string * list item) -> native -> Prop :=
| sv bs m : NoDup (keys m) ->
    (forall l, lookup l m = None <-> last_entry l bs = None) ->
    (forall l b v, last_entry l bs = Some b -> lookup l m = Some v -> body_value b v) ->
    second_value bs (NMap m).

(* A body in which every name is used in one way only and no labels are repeated. *)
Definition uniform (its : list item) : Prop :=
  forall k,
    (exists e, named k its = [IAttr k e])
    \/ (exists bs, named k its = map (IBlock k []) bs)
    \/ (exists bs, NoDup (map fst bs) /\ named k its = map (fun b => IBlock k [fst b] (snd b)) bs)
    \/ (exists bs, NoDup (map fst bs)
         /\ named k its = map (fun b => IBlock k [fst (fst b); snd (fst b)] (snd b)) bs).

(* No attribute is defined twice, in the body or inside its blocks. *)
Inductive distinct_attrs : list item -> Prop :=
| da its : NoDup (attr_names its) ->
    (forall t ls b, In (IBlock t ls b) its -> distinct_attrs b) -> distinct_attrs its.

(* Everything in the body evaluates. *)
Inductive good_expr : expr -> Prop :=
| ge_num z : in_int64 z -> good_expr (ENum z)
| ge_dec m k : (0 <= m <= (2 ^ 63 - 1) * 10 ^ Z.of_nat k)%Z -> good_expr (EDec m k)
| ge_str s : good_expr (EStr s)
| ge_bool b : good_expr (EBool b)
| ge_null : good_expr ENull
| ge_call : good_expr (ECall "null")
| ge_tuple l : (forall e, In e l -> good_expr e) -> good_expr (ETuple l)
| ge_obj m : (forall k e, In (k, e) m -> good_expr e) -> good_expr (EObj m).
Inductive good_item : item -> Prop :=
| gi_attr k e : good_expr e -> good_item (IAttr k e)
| gi_block t ls b : List.length ls <= 2 -> (forall i, In i b -> good_item i) ->
    good_item (IBlock t ls b).

(* The data of an item can be found in the decoded map. *)
Definition found (obj : list (string * native)) (i : item) : Prop :=
  match i with
  | IAttr k e => exists v, lookup k obj = Some v /\ expr_value e v
  | IBlock t [] b => exists v, body_value b v
      /\ (lookup t obj = Some v \/ exists vs, lookup t obj = Some (NList vs) /\ In v vs)
  | IBlock t [l] b => exists m v, lookup t obj = Some (NMap m) /\ lookup l m = Some v /\ body_value b v
  | IBlock t [l1; l2] b => exists m m2 v, lookup t obj = Some (NMap m) /\ lookup l1 m = Some (NMap m2)
      /\ lookup l2 m2 = Some v /\ body_value b v
  | IBlock _ _ _ => False
  end.

(* What happens to list elements: zeros and nulls turn into empty lists. *)
Definition element_back (v w : native) : Prop :=
  ((zero_scalar v \/ v = NNil) /\ w = NNilList) \/ (~ zero_scalar v /\ v <> NNil /\ same v w).

(* JSON-like data whose keys are identifiers and whose strings are quotable. *)
Inductive json : native -> Prop :=
| js_scalar v : scalar v -> json v
| js_null : json NNil
| js_list l : (forall v, In v l -> json v) -> json (NList l)
| js_map m : NoDup (keys m) -> (forall k v, In (k, v) m -> ident k /\ json v) -> json (NMap m).
