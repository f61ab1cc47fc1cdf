(* When JSON decoding with a spec is to succeed, independently of the traversals. *)

From Verif Require Import Base GoType SpecModel CollectModel CollectSpec DetModel DetSpec.

Section Able.
Variable E : env.
Variable std : gtype -> gval -> option json -> gval * result unit.
Variable zero : gtype -> gval.
Variable assignable : gtype -> gtype -> bool.
(* The fields of a struct, and of the structs embedded in it, have different names. *)
Inductive proper : list gfield -> Prop :=
| proper_intro : forall fs, NoDup (map fname fs) ->
    (forall f gs, In f fs -> fanon f = true -> under E (ftype f) = TStruct gs -> proper gs) -> proper fs.

(* The classes available while decoding into a pointer to t with reference map ref: what
   the caller gave; and every struct type the target refers to, if their names differ. *)
Definition names_differ (ref : refmap) (t : gtype) : Prop :=
  (forall n m d d', reaches E (implementations ref) (TPtr t) n -> reaches E (implementations ref) (TPtr t) m ->
     nth_error E n = Some d -> nth_error E m = Some d' -> n_name d = n_name d' -> n = m) /\
  (forall n d, reaches E (implementations ref) (TPtr t) n -> nth_error E n = Some d -> plain_name (n_name d)).
Definition known (ref : refmap) (t : gtype) (ref' : refmap) : Prop :=
  merged E ref t ref' /\
  (names_differ ref t -> forall c n, (forall r, lookup c ref = Some r -> exists l, r = RImpls l) ->
     reaches E (implementations ref) (TPtr t) n -> key_of E n c -> lookup c ref' = Some (RPtrTo (TNamed n))).

Section Field.
Variable D : sstruct -> gtype -> gval -> option json -> Prop.
(* The classes known at this level. *)
Variable ref : refmap.

(* j can be decoded into a fresh instance, of type t, of the class of s. *)
Definition makes (s : sstruct) (j : option json) (t : gtype) : Prop :=
  lookup (class_of s) ref = Some (RPtrTo t) /\ D s t (zero t) j.

(* A field f with spec sp can take the JSON text oj; ft is the type of the field that is set. *)
Inductive takes (sp : option svalue) (f : gfield) (ft : gtype) (oj : option json) : Prop :=
| tk_absent : sp = None -> oj = None -> assignable (ftype f) ft = true -> takes sp f ft oj
| tk_plain : forall j v, sp = None -> oj = Some j -> std (ftype f) (zero (ftype f)) (Some j) = (v, Ok tt) ->
    assignable (ftype f) ft = true -> takes sp f ft oj
| tk_single_ptr : forall s t, sp = Some (VSingle s) -> makes s oj t -> pointer_like E ft ->
    assignable (TPtr t) ft = true -> takes sp f ft oj
| tk_single_val : forall s t, sp = Some (VSingle s) -> makes s oj t -> ~ pointer_like E ft ->
    assignable t ft = true -> takes sp f ft oj
| tk_list : forall specs e js, sp = Some (VList specs) -> specs <> [] -> under E (ftype f) = TSlice e ->
    elements oj js -> assignable (ftype f) ft = true ->
    (forall k j s, nth_error js k = Some j -> picks_list specs k s -> exists t,
        makes s (Some j) t /\ assignable (TPtr t) e = true) ->
    takes sp f ft oj
| tk_listmap : forall specs kt e ms, sp = Some (VList specs) -> specs <> [] -> under E (ftype f) = TMap kt e ->
    entries oj ms -> assignable (ftype f) ft = true -> assignable (TBasic "string") kt = true ->
    (forall k j s, entry ms k j -> In s specs -> exists t, makes s (Some j) t /\ assignable (TPtr t) e = true) ->
    takes sp f ft oj
| tk_map : forall specs kt e ms, sp = Some (VMap specs) -> specs <> [] -> under E (ftype f) = TMap kt e ->
    entries oj ms -> assignable (ftype f) ft = true -> assignable (TBasic "string") kt = true ->
    (forall k j s, entry ms k j -> picks_map specs k s -> exists t, makes s (Some j) t /\ assignable (TPtr t) e = true) ->
    takes sp f ft oj
| tk_map2 : forall specs kt e ms k1 ms1 k2 s1, sp = Some (VMap2 specs) ->
    smallest specs k1 ms1 -> smallest ms1 k2 s1 -> under E (ftype f) = TMap kt e ->
    entries oj ms -> (forall a j, entry ms a j -> exists ms', entries (Some j) ms') ->
    assignable (ftype f) ft = true -> assignable (TArray (TBasic "string")) kt = true ->
    (forall a j ms' b j' s, entry ms a j -> entries (Some j) ms' -> entry ms' b j' -> picks_map2 specs a b s ->
        exists t, makes s (Some j') t /\ assignable (TPtr t) e = true) ->
    takes sp f ft oj.
End Field.

(* The JSON text dat can be decoded with spec s, among the classes of ref, into a target of
   type t and prior value cur. *)
Inductive decodable : refmap -> sstruct -> gtype -> gval -> option json -> Prop :=
| able_std : forall ref c fo t cur dat v, fo = None \/ fo = Some [] -> std t cur dat = (v, Ok tt) ->
    decodable ref (SStruct c fo) t cur dat
| able_spec : forall ref c om t cur dat fs l ms, om <> [] -> under E t = TStruct fs -> proper fs -> flat E fs l ->
    NoDup (map (fun pf => fname (snd pf)) l) -> members dat ms ->
    (forall ref' p f, known ref t ref' -> In (p, f) l -> exists q ft, selects E fs (fname f) q ft /\
       takes (decodable ref') ref' (lookup (fname f) om) f ft (jget E om (map snd l) f ms)) ->
    decodable ref (SStruct c (Some om)) t cur dat.
End Able.
