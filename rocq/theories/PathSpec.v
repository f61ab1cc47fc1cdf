(* What paths mean, without symbolic links: the place that walking by their names leads to. *)

From Verif Require Import Base.

Fixpoint no_slash (s : string) : Prop := match s with String c s' => c <> "/"%char /\ no_slash s' | "" => True end.
(* The names of a path, which are what its slashes separate. *)
Fixpoint slashed (l : list string) : string :=
  match l with [] => "" | [n] => n | n :: l' => n +++ "/" +++ slashed l' end.
Definition names (p : string) (l : list string) : Prop := l <> [] /\ (forall n, In n l -> no_slash n) /\ p = slashed l.

(* A place is the names that lead to it from the root, the last one first.  The empty name and
   "." stay, ".." goes up and stays at the root. *)
Definition place := list string.
Inductive step : place -> string -> place -> Prop :=
| st_empty : forall a, step a "" a
| st_dot : forall a, step a "." a
| st_up : forall n a, step (n :: a) ".." a
| st_root : step [] ".." []
| st_name : forall a n, n <> "" -> n <> "." -> n <> ".." -> step a n (n :: a).
Inductive walk : place -> list string -> place -> Prop :=
| walk_here : forall a, walk a [] a
| walk_on : forall a n b l c, step a n b -> walk b l c -> walk a (n :: l) c.
Definition rooted (p : string) : Prop := exists q, p = String "/" q.
(* Where a path leads from a place. *)
Definition leads (a : place) (p : string) (b : place) : Prop :=
  exists l, names p l /\ ((rooted p /\ walk [] l b) \/ (~ rooted p /\ walk a l b)).
Definition same_paths (p q : string) : Prop := forall a b, leads a p b <-> leads a q b.

(* The shortest way to write a path: "/", ".", or names other than "", "." with all ".." at the
   start, and none of them after a slash at the start. *)
Definition plain_name (n : string) : Prop := n <> "" /\ n <> "." /\ n <> ".." /\ no_slash n.
Inductive shortest : string -> Prop :=
| sh_root : shortest "/"
| sh_here : shortest "."
| sh_absolute : forall l, l <> [] -> (forall n, In n l -> plain_name n) -> shortest ("/" +++ slashed l)
| sh_relative : forall k l, repeat ".." k ++ l <> [] -> (forall n, In n l -> plain_name n) -> shortest (slashed (repeat ".." k ++ l)).
(* k slashes *)
Fixpoint slashes (k : nat) : string := match k with O => "" | S k' => String "/" (slashes k') end.
Definition no_tilde (p : string) : Prop := forall q, p <> String "~" q.
