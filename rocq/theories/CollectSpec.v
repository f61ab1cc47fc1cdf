(* Which struct types a target refers to, independently of the traversal. *)

From Verif Require Import Base GoType CollectModel.

Section Reach.
Variable E : env.
Variable impls : list (string * list (option gtype)).

(* t or what the pointer t points to. *)
Inductive strip : gtype -> gtype -> Prop :=
| strip_ptr : forall t e, under E t = TPtr e -> strip t e
| strip_none : forall t, (forall e, under E t <> TPtr e) -> strip t t.

(* One step that is not a struct field: slice element, map value, or an implementation
   listed for an interface name, each possibly behind one pointer. *)
Inductive inside : gtype -> gtype -> Prop :=
| in_slice : forall t u e, strip t u -> under E u = TSlice e -> inside t e
| in_map : forall t u k e, strip t u -> under E u = TMap k e -> inside t e
| in_impl : forall t u ms l e, strip t u -> under E u = TIface ms ->
    lookup (type_name E u) impls = Some l -> In (Some e) l -> inside t e.

(* t is, or points to, the named struct type n with fields fs. *)
Definition is_struct (t : gtype) (n : tid) (fs : list gfield) : Prop :=
  strip t (TNamed n) /\ under E (TNamed n) = TStruct fs.

(* Reachable named struct types. *)
Inductive reaches : gtype -> tid -> Prop :=
| re_here : forall t n fs, is_struct t n fs -> reaches t n
| re_inside : forall t u n, inside t u -> reaches u n -> reaches t n
| re_field : forall t n fs f m, is_struct t n fs -> In f fs -> reaches (ftype f) m -> reaches t m.

(* q is the last element of the slash-separated path pkg. *)
Definition last_element (pkg q : string) : Prop :=
  ~ In "/"%char (list_ascii_of_string q) /\ (pkg = q \/ exists dir, pkg = (dir +++ "/" +++ q)).

(* The keys under which a named type is to be available. *)
Definition key_of (n : tid) (k : string) : Prop :=
  exists d, nth_error E n = Some d /\
    (k = n_name d \/ (n_pkg d <> "" /\ exists q, last_element (n_pkg d) q /\ k = q +++ "." +++ n_name d)).

(* Named types have non-empty names without dots (true of all non-generic Go types). *)
Definition plain_name (s : string) : Prop := s <> "" /\ ~ In "."%char (list_ascii_of_string s).

End Reach.
