(* Specification of the node tree, independent of the model in TreeModel.v (only the
   vocabulary of calls and answers, op/out, is shared).
   Every node handle owns an ordered dictionary from names to child handles and a
   dictionary from keys to items.  That is all. *)

From Verif Require Import Base TreeModel.

Section Spec.
Context {V : Type}.

Record spec := mkSpec {
  s_next : nat;                            (* number of handles given out so far *)
  s_kids : nat -> list (string * nat);     (* ordered dictionary of children *)
  s_items : nat -> list (string * V)       (* dictionary of items *)
}.

Definition upd {A} (f : nat -> A) (p : nat) (x : A) : nat -> A :=
  fun q => if Nat.eqb q p then x else f q.

Definition s_init : spec := mkSpec 1 (fun _ => []) (fun _ => []).

(* get-or-create one child *)
Definition s_add1 (s : spec) (p : nat) (n : string) : spec * nat :=
  match lookup n (s_kids s p) with
  | Some c => (s, c)
  | None => (mkSpec (S (s_next s))
                    (upd (s_kids s) p (s_kids s p ++ [(n, s_next s)]))
                    (s_items s), s_next s)
  end.

(* get-or-create along a path *)
Fixpoint s_add (s : spec) (p : nat) (path : list string) : spec * nat :=
  match path with
  | [] => (s, p)
  | n :: path' => let (s', c) := s_add1 s p n in s_add s' c path'
  end.

(* follow a path *)
Fixpoint s_walk (s : spec) (p : nat) (path : list string) : option nat :=
  match path with
  | [] => Some p
  | n :: path' => match lookup n (s_kids s p) with
                  | Some c => s_walk s c path'
                  | None => None
                  end
  end.

Definition s_step (s : spec) (o : op V) : spec * out V :=
  match o with
  | OAdd p tag names =>
      if p <? s_next s
      then let (s', c) := s_add s p (tag :: names) in (s', RNode (Some c))
      else (s, RPanic)
  | OGet p tag names =>
      if p <? s_next s
      then (s, RNode (if string_dec tag "" then Some p else s_walk s p (tag :: names)))
      else (s, RPanic)
  | ODel p n =>
      if p <? s_next s
      then (mkSpec (s_next s) (upd (s_kids s) p (remove_key n (s_kids s p))) (s_items s), RUnit)
      else (s, RPanic)
  | OAddItem p k v =>
      if p <? s_next s
      then (mkSpec (s_next s) (s_kids s) (upd (s_items s) p (insert k v (s_items s p))), RUnit)
      else (s, RPanic)
  | ODelItem p k =>
      if p <? s_next s
      then (mkSpec (s_next s) (s_kids s) (upd (s_items s) p (remove_key k (s_items s p))), RUnit)
      else (s, RPanic)
  | OItem p k =>
      if p <? s_next s then (s, RItem (lookup k (s_items s p))) else (s, RPanic)
  | ODowns p =>
      if p <? s_next s then (s, RDowns (s_kids s p)) else (s, RPanic)
  end.

Fixpoint s_run (s : spec) (ops : list (op V)) : spec * list (out V) :=
  match ops with
  | [] => (s, [])
  | o :: ops' => let (s1, r) := s_step s o in let (s2, rs) := s_run s1 ops' in (s2, r :: rs)
  end.

(* ---------------------------------------------------------- name search *)

(* subseq names path: names occurs in path, in order, the last of names being the
   last of path. *)
Inductive chain : list string -> list string -> Prop :=
| chain_last : forall n, chain [n] [n]
| chain_take : forall n names path, chain names path -> chain (n :: names) (n :: path)
| chain_skip : forall m names path, chain names path -> chain names (m :: path).

(* path_to t path t': t' is reached from t by going down through nodes named path. *)
Inductive path_to : tree V -> list string -> tree V -> Prop :=
| pt_here : forall t d, In d (tdowns t) -> path_to t [tname d] d
| pt_down : forall t d path t', In d (tdowns t) -> path_to d path t' -> path_to t (tname d :: path) t'.

(* ---------------------------------------------------------- variables *)

(* wf t: below every node, sibling names are distinct and so are data keys. *)
Inductive wf : tree V -> Prop :=
| wf_node : forall id name data downs,
    NoDup (map tname downs) -> NoDup (map fst data) -> Forall wf downs ->
    wf (Tr id name data downs).

(* resolves self t path v: the evaluator expression path[0].path[1]... evaluated in
   the variables of node t denotes the data item v.
   - a data item is visible under its key, unless the key is "var";
   - a child is visible under its name unless hidden by a data item;
   - at a node named "var", the name "var" denotes the node's own view (self = true);
     inside that view (self = false) the node's other names are visible. *)
Inductive resolves : bool -> tree V -> list string -> V -> Prop :=
| res_item : forall self t k v,
    k <> "var" -> lookup k (tdata t) = Some v ->
    resolves self t [k] v
| res_child : forall self t d path v,
    In d (tdowns t) ->
    (tname d = "var" \/ lookup (tname d) (tdata t) = None) ->
    ~ (self = true /\ tname t = "var" /\ tname d = "var") ->
    resolves true d path v ->
    resolves self t (tname d :: path) v
| res_self : forall t path v,
    tname t = "var" -> resolves false t path v ->
    resolves true t ("var" :: path) v.

(* Selecting a path in an object value. *)
Fixpoint select (c : cval V) (path : list string) : option (cval V) :=
  match path with
  | [] => Some c
  | k :: path' => match c with
                  | CItem _ => None
                  | CObject fs => match lookup k fs with
                                  | Some c' => select c' path'
                                  | None => None
                                  end
                  end
  end.
End Spec.
Arguments spec V : clear implicits.
