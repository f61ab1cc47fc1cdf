(* Model of utils/tree.go (sequential part): the node tree that holds evaluation
   variables.  Nodes live in a heap indexed by a natural number standing for the
   Go pointer, so that a caller may keep and use a pointer to any node it was ever
   given, including one that was deleted from its parent.
   The mutex is ignored here (one goroutine); see TreeConc.v for interleavings. *)

From Verif Require Import Base.

Section Tree.
(* Item values (cty.Value, external). *)
Context {V : Type}.

(* utils/tree.go:18-24  type Tree struct { mu; Name; Data; Up; Downs }.
   Data (sync.Map) is an association list, Downs ([]*Tree) a list of pointers. *)
Record node := mkNode {
  nname : string;
  ndata : list (string * V);
  nup : option nat;
  ndowns : list nat
}.

Definition heap := list node.

Definition get (h : heap) (p : nat) : option node := nth_error h p.

Fixpoint set_nth {A} (n : nat) (x : A) (l : list A) : list A :=
  match l, n with
  | [], _ => []
  | _ :: l', O => x :: l'
  | y :: l', S n' => y :: set_nth n' x l'
  end.

(* utils/tree.go:27-29  NewTree: allocate a node. *)
Definition new_tree (h : heap) (name : string) : heap * nat :=
  (h ++ [mkNode name [] None []], length h).

(* utils/tree.go:79-86  grep: first pointer in the slice whose node has the name.
   A dangling pointer cannot occur in Go; here it is skipped. *)
Fixpoint grep (h : heap) (downs : list nat) (name : string) : option nat :=
  match downs with
  | [] => None
  | d :: ds =>
      match get h d with
      | Some nd => if string_dec (nname nd) name then Some d else grep h ds name
      | None => grep h ds name
      end
  end.

(* utils/tree.go:56-68  AddNode: existing child of that name, or a new one appended
   to Downs with Up set.  None: nil receiver (nil pointer dereference panic). *)
Definition add_node (h : heap) (p : nat) (name : string) : option (heap * nat) :=
  match get h p with
  | None => None
  | Some nd =>
      match grep h (ndowns nd) name with
      | Some c => Some (h, c)
      | None =>
          let (h1, c) := new_tree h name in
          let h2 := set_nth p (mkNode (nname nd) (ndata nd) (nup nd) (ndowns nd ++ [c])) h1 in
          Some (set_nth c (mkNode name [] (Some p) []) h2, c)
      end
  end.

(* utils/tree.go:71-77  AddNodes: AddNode along tag, names. *)
Fixpoint add_nodes (h : heap) (p : nat) (tag : string) (names : list string) : option (heap * nat) :=
  match add_node h p tag with
  | None => None
  | Some (h', c) =>
      match names with
      | [] => Some (h', c)
      | n :: ns => add_nodes h' c n ns
      end
  end.

Fixpoint walk (h : heap) (p : nat) (names : list string) : option nat :=
  match names with
  | [] => Some p
  | n :: ns =>
      match get h p with
      | None => None
      | Some nd => match grep h (ndowns nd) n with
                   | None => None
                   | Some c => walk h c ns
                   end
      end
  end.

(* utils/tree.go:89-106  GetNode: the receiver itself when tag is empty (whatever
   the names are), else the walk along tag, names. *)
Definition get_node (h : heap) (p : nat) (tag : string) (names : list string) : option nat :=
  if string_dec tag "" then Some p else walk h p (tag :: names).

(* utils/tree.go:110-122  the loop of DeleteNode: drop the first pointer of that name.
   Downs[:i] and append(Downs[:i], Downs[i+1:]...) both denote the list without
   element i (the in-place shift is modelled in TreeConc.v). *)
Fixpoint drop_first (h : heap) (downs : list nat) (name : string) : list nat :=
  match downs with
  | [] => []
  | d :: ds =>
      match get h d with
      | Some nd => if string_dec (nname nd) name then ds else d :: drop_first h ds name
      | None => d :: drop_first h ds name
      end
  end.

(* utils/tree.go:109-123  DeleteNode. *)
Definition delete_node (h : heap) (p : nat) (name : string) : option heap :=
  match get h p with
  | None => None
  | Some nd =>
      Some (set_nth p (mkNode (nname nd) (ndata nd) (nup nd) (drop_first h (ndowns nd) name)) h)
  end.

(* utils/tree.go:126-128  AddItem: Data.Store. *)
Definition add_item (h : heap) (p : nat) (k : string) (v : V) : option heap :=
  match get h p with
  | None => None
  | Some nd => Some (set_nth p (mkNode (nname nd) (insert k v (ndata nd)) (nup nd) (ndowns nd)) h)
  end.

(* utils/tree.go:131-133  DeleteItem: Data.Delete. *)
Definition delete_item (h : heap) (p : nat) (k : string) : option heap :=
  match get h p with
  | None => None
  | Some nd => Some (set_nth p (mkNode (nname nd) (remove_key k (ndata nd)) (nup nd) (ndowns nd)) h)
  end.

(* Public calls, and what the caller sees.  The receiver is a pointer. *)
Inductive op :=
| OAdd (p : nat) (tag : string) (names : list string)   (* AddNodes; AddNode when names = [] *)
| OGet (p : nat) (tag : string) (names : list string)   (* GetNode *)
| ODel (p : nat) (name : string)                        (* DeleteNode *)
| OAddItem (p : nat) (k : string) (v : V)               (* AddItem *)
| ODelItem (p : nat) (k : string)                       (* DeleteItem *)
| OItem (p : nat) (k : string)                          (* Data.Load, Data is exported *)
| ODowns (p : nat).                                     (* reading the exported field Downs *)

Inductive out :=
| RDowns (l : list (string * nat))                      (* names and pointers, in slice order *)
| RNode (r : option nat)
| RItem (r : option V)
| RUnit
| RPanic.

(* Reading .Name through each pointer of a slice. *)
Definition named (h : heap) (ds : list nat) : list (string * nat) :=
  flat_map (fun d => match get h d with Some nd => [(nname nd, d)] | None => [] end) ds.

Definition step (h : heap) (o : op) : heap * out :=
  match o with
  | OAdd p tag names =>
      match add_nodes h p tag names with
      | Some (h', c) => (h', RNode (Some c))
      | None => (h, RPanic)
      end
  | OGet p tag names =>
      match get h p with
      | Some _ => (h, RNode (get_node h p tag names))
      | None => (h, RPanic)
      end
  | ODel p name =>
      match delete_node h p name with
      | Some h' => (h', RUnit)
      | None => (h, RPanic)
      end
  | OAddItem p k v =>
      match add_item h p k v with
      | Some h' => (h', RUnit)
      | None => (h, RPanic)
      end
  | ODelItem p k =>
      match delete_item h p k with
      | Some h' => (h', RUnit)
      | None => (h, RPanic)
      end
  | OItem p k =>
      match get h p with
      | Some nd => (h, RItem (lookup k (ndata nd)))
      | None => (h, RPanic)
      end
  | ODowns p =>
      match get h p with
      | Some nd => (h, RDowns (named h (ndowns nd)))
      | None => (h, RPanic)
      end
  end.

Fixpoint run (h : heap) (ops : list op) : heap * list out :=
  match ops with
  | [] => (h, [])
  | o :: ops' => let (h1, r) := step h o in let (h2, rs) := run h1 ops' in (h2, r :: rs)
  end.

(* A fresh tree: NewTree(name). *)
Definition init (name : string) : heap := fst (new_tree [] name).

(* ------------------------------------------------------- recursive readers *)

(* FindNode and Variables only read; they are modelled on the unfolded tree. *)
Inductive tree := Tr (id : nat) (name : string) (data : list (string * V)) (downs : list tree).

Definition tname (t : tree) := let (_, n, _, _) := t in n.
Definition tid (t : tree) := let (i, _, _, _) := t in i.
Definition tdowns (t : tree) := let (_, _, _, d) := t in d.
Definition tdata (t : tree) := let (_, _, d, _) := t in d.

(* Unfold the heap below p; fuel bounds the depth.  TreeProofs.v shows that
   length h is always enough fuel in a reachable heap. *)
Fixpoint unfold_tree (fuel : nat) (h : heap) (p : nat) : option tree :=
  match fuel with
  | O => None
  | S f =>
      match get h p with
      | None => None
      | Some nd =>
          match (fix go (ds : list nat) : option (list tree) :=
                   match ds with
                   | [] => Some []
                   | d :: ds' => match unfold_tree f h d, go ds' with
                                 | Some t, Some ts => Some (t :: ts)
                                 | _, _ => None
                                 end
                   end) (ndowns nd)
          with
          | Some ts => Some (Tr p (nname nd) (ndata nd) ts)
          | None => None
          end
      end
  end.

(* utils/tree.go:136-158  FindNode.  The loop returns in the matching branch, so the
   remaining siblings are then never tried. *)
Fixpoint find_node (t : tree) (names : list string) {struct t} : option tree :=
  match names with
  | [] => None
  | n0 :: rest =>
      let '(Tr _ _ _ downs) := t in
      (fix go (ds : list tree) : option tree :=
         match ds with
         | [] => None
         | item :: ds' =>
             if string_dec (tname item) n0 then
               match rest with
               | [] => Some item
               | _ => find_node item rest
               end
             else
               match find_node item (n0 :: rest) with
               | Some d => Some d
               | None => go ds'
               end
         end) downs
  end.

(* The evaluator's values, as far as Variables builds them: an item, or an object. *)
Inductive cval :=
| CItem (v : V)
| CObject (fields : list (string * cval)).

(* utils/tree.go:12 *)
Definition VAR : string := "var".

(* utils/tree.go:161-180  Variables.  hash is a Go map; children are inserted in
   order, then the data items except "var", then "var" itself if the node is so
   named (cty.ObjectVal copies its argument, so no cycle arises). *)
Fixpoint variables (t : tree) : list (string * cval) :=
  let '(Tr _ name data downs) := t in
  let hash1 :=
    (fix go (ds : list tree) (acc : list (string * cval)) : list (string * cval) :=
       match ds with
       | [] => acc
       | d :: ds' => go ds' (insert (tname d) (CObject (variables d)) acc)
       end) downs [] in
  let hash2 :=
    fold_left (fun acc kv => if string_dec (fst kv) VAR then acc
                             else insert (fst kv) (CItem (snd kv)) acc) data hash1 in
  if string_dec name VAR then insert VAR (CObject hash2) hash2 else hash2.

End Tree.

Arguments node V : clear implicits.
Arguments heap V : clear implicits.
Arguments tree V : clear implicits.
Arguments cval V : clear implicits.
Arguments op V : clear implicits.
Arguments out V : clear implicits.

(* ------------------------------------------------ DefaultTreeFunctions *)

Section Defaults.
(* function.Function (external). *)
Context {Fn : Type}.

(* A value in the caller's ref map, as far as DefaultTreeFunctions distinguishes. *)
Inductive refval :=
| RTree (id : nat)                      (* *Tree *)
| RFuncs (m : list (string * Fn))       (* map[string]function.Function *)
| RNil                                  (* nil interface *)
| ROther (tag : nat).                   (* anything else *)

(* utils/tree.go:13-14 *)
Definition ATTRIBUTES : string := "attributes".
Definition FUNCTIONS : string := "functions".

(* utils/tree.go:47-49  for k, v := range defaultFuncs { t[k] = v } *)
Definition overlay (t defaults : list (string * Fn)) : list (string * Fn) :=
  fold_left (fun acc kv => insert (fst kv) (snd kv) acc) defaults t.

(* utils/tree.go:32-53  DefaultTreeFunctions.  fresh is the pointer NewTree returns;
   defaults is ilang.CoreFunctions(".").  The map is updated in place, so the
   returned map is also what the caller's ref variable now holds. *)
Definition default_tree_functions (defaults : list (string * Fn)) (fresh : nat)
  (ref : list (string * refval)) : result (nat * list (string * refval)) :=
  do nr <- match lookup ATTRIBUTES ref with
           | Some (RTree id) => Ok (id, ref)
           | Some _ => Panic "interface conversion"
           | None => Ok (fresh, insert ATTRIBUTES (RTree fresh) ref)
           end;
  let (nd, ref1) := nr in
  match lookup FUNCTIONS ref1 with
  | None | Some RNil => Ok (nd, insert FUNCTIONS (RFuncs defaults) ref1)
  | Some (RFuncs t) => Ok (nd, insert FUNCTIONS (RFuncs (overlay t defaults)) ref1)
  | Some _ => Ok (nd, ref1)
  end.
End Defaults.
Arguments refval Fn : clear implicits.
