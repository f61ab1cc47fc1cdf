(* Property theorems for utils/tree.go: C01-C07.  Definitions of the vocabulary are in
   TreeModel.v / TreeConc.v (model) and TreeSpec.v (specification). *)

From Verif Require Import Base TreeModel TreeSpec TreeProofs TreeConc TreeConcProofs.

(* -------------------------------------------------------------------- C01 *)

(* Every history of calls on a new tree gives the answers of the specification, in which
   each node is an ordered dictionary from names to children. *)
Theorem C01_tree_refines_dictionary : forall (V : Type) (name : string) (ops : list (op V)),
  snd (run (init name) ops) = snd (s_run s_init ops).
Proof. exact @tree_refines_spec. Qed.
Print Assumptions C01_tree_refines_dictionary.

(* In every reachable state sibling names are pairwise different. *)
Theorem C01_siblings_unique : forall (V : Type) (h : heap V) p nd, reachable h -> get h p = Some nd ->
  NoDup (map fst (named h (ndowns nd))) /\ map snd (named h (ndowns nd)) = ndowns nd.
Proof. exact @siblings_unique. Qed.
Print Assumptions C01_siblings_unique.

(* A child stays what AddNode returned, for lookups and for further AddNode calls, through
   any later history that does not delete it. *)
Theorem C01_child_stays_until_deleted : forall (V : Type) (h : heap V) p n h1 c ops,
  reachable h -> n <> "" -> step h (OAdd p n []) = (h1, RNode (Some c)) ->
  (forall o, In o ops -> ~ deletes p n o) ->
  snd (step (fst (run h1 ops)) (OGet p n [])) = RNode (Some c) /\
  snd (step (fst (run h1 ops)) (OAdd p n [])) = RNode (Some c).
Proof. exact @child_stays. Qed.
Print Assumptions C01_child_stays_until_deleted.

Example C01_history : snd (run (init "var")
   [OAdd 0 "a" ["b"]; OAdd 0 "a" ["b"; "c"]; OGet 0 "a" ["b"]; OAddItem 2 "k" 7; OItem 2 "k";
    ODel 0 "a"; OGet 0 "a" ["b"]; OGet 2 "c" []; OAdd 0 "a" ["b"]; ODowns 0])
  = [RNode (Some 2); RNode (Some 3); RNode (Some 2); RUnit; RItem (Some 7); RUnit;
     RNode None; RNode (Some 3); RNode (Some 5); RDowns [("a", 4)]].
Proof. reflexivity. Qed.

Example C01_child_stays_nonvacuous :
  let h := fst (run (init "var" : heap nat) [OAdd 0 "x" []; ODel 0 "x"]) in
  reachable h /\ "n" <> "" /\
  step h (OAdd 0 "n" []) = (fst (step h (OAdd 0 "n" [])), RNode (Some 2)) /\
  (forall o, In o [ODel 0 "m"; OAdd 0 "z" ["n"]; ODel 1 "n" : op nat] -> ~ deletes 0 "n" o).
Proof.
  cbv zeta. split; [eexists; eexists; reflexivity|]. split; [discriminate|]. split; [reflexivity|].
  intros o Ho; simpl in Ho; destruct Ho as [<-|[<-|[<-|[]]]]; simpl; intros Hd; try tauto; destruct Hd; discriminate.
Qed.

(* With an empty name the claim fails: AddNode("") creates a child that GetNode("") does
   not find, because GetNode with an empty tag returns the receiver. *)
Theorem C01_empty_name_refuted : exists (ops : list (op nat)) c,
  snd (run (init "var") ops) = [RNode (Some c); RNode (Some 0)] /\
  ops = [OAdd 0 "" []; OGet 0 "" []] /\ c <> 0.
Proof. exists [OAdd 0 "" []; OGet 0 "" []], 1. repeat split; discriminate. Qed.
Print Assumptions C01_empty_name_refuted.

(* -------------------------------------------------------------------- C02 *)

Theorem C02_delete_removes_exactly_that_child : forall (V : Type) (h : heap V) p nd n h',
  reachable h -> get h p = Some nd -> delete_node h p n = Some h' ->
  (forall q, q <> p -> get h' q = get h q) /\
  exists nd', get h' p = Some nd' /\ nname nd' = nname nd /\ ndata nd' = ndata nd /\ nup nd' = nup nd /\
  ((exists l1 c l2 cd, ndowns nd = l1 ++ c :: l2 /\ get h c = Some cd /\ nname cd = n /\
      (forall d dd, In d (l1 ++ l2) -> get h d = Some dd -> nname dd <> n) /\
      ndowns nd' = l1 ++ l2) \/
   ((forall d dd, In d (ndowns nd) -> get h d = Some dd -> nname dd <> n) /\
      ndowns nd' = ndowns nd)).
Proof. exact @delete_exact. Qed.
Print Assumptions C02_delete_removes_exactly_that_child.

Example C02_nonvacuous :
  let h := fst (run (init "var" : heap nat) [OAdd 0 "a" []; OAdd 0 "b" []; OAdd 0 "c" []]) in
  reachable h /\ (exists nd, get h 0 = Some nd /\ ndowns nd = [1; 2; 3]) /\
  (exists h', delete_node h 0 "b" = Some h' /\ exists nd', get h' 0 = Some nd' /\ ndowns nd' = [1; 3]).
Proof.
  cbv zeta. split; [eexists; eexists; reflexivity|]. split; [eexists; split; reflexivity|].
  eexists; split; [reflexivity|]. eexists; split; reflexivity.
Qed.

(* -------------------------------------------------------------------- C03 *)

Theorem C03_find_sound : forall (V : Type) (t : tree V) names r, find_node t names = Some r ->
  exists path, path_to t path r /\ chain names path.
Proof. exact @find_sound. Qed.
Print Assumptions C03_find_sound.

(* Full statement of completeness, which does not hold (see the refutation below):
     forall t names path r, wf t -> path_to t path r -> chain names path -> find_node t names <> None
   Proved: it holds for a single name, and for every chain when no name occurs twice. *)
Theorem C03_find_complete_single_partial : forall (V : Type) (t : tree V) n path r,
  path_to t path r -> chain [n] path -> find_node t [n] <> None.
Proof. exact @find_single_complete. Qed.
Print Assumptions C03_find_complete_single_partial.

Theorem C03_find_complete_distinct_partial : forall (V : Type) (t : tree V) names path r,
  NoDup (flat_map all_names (tdowns t)) -> path_to t path r -> chain names path ->
  find_node t names <> None.
Proof. exact @find_complete_distinct. Qed.
Print Assumptions C03_find_complete_distinct_partial.

(* The tree built by AddNodes(a), AddNodes(y, a, b): FindNode([a, b]) commits to the
   first a, which has no b, and gives up, although y/a/b matches. *)
Theorem C03_find_complete_refuted : exists (h : heap nat) (t : tree nat) path r,
  reachable h /\ unfold_tree (length h) h 0 = Some t /\ wf t /\
  path_to t path r /\ chain ["a"; "b"] path /\ find_node t ["a"; "b"] = None.
Proof.
  exists (fst (run (init "var") [OAdd 0 "a" []; OAdd 0 "y" ["a"; "b"]])).
  exists (Tr 0 "var" [] [Tr 1 "a" [] []; Tr 2 "y" [] [Tr 3 "a" [] [Tr 4 "b" [] []]]]).
  exists ["y"; "a"; "b"], (Tr 4 "b" [] []).
  split; [eexists; eexists; reflexivity|]. split; [reflexivity|].
  split; [repeat (constructor; simpl; try tauto); intros [E|[]]; discriminate|].
  split; [|split; [|reflexivity]].
  - apply (pt_down _ (Tr 2 "y" [] [Tr 3 "a" [] [Tr 4 "b" [] []]])); [simpl; auto|].
    apply (pt_down _ (Tr 3 "a" [] [Tr 4 "b" [] []])); [simpl; auto|].
    apply (pt_here _ (Tr 4 "b" [] [])); simpl; auto.
  - apply chain_skip, chain_take, chain_last.
Qed.
Print Assumptions C03_find_complete_refuted.

Example C03_nonvacuous : find_node (Tr 0 "var" ([] : list (string * nat))
    [Tr 2 "y" [] [Tr 3 "a" [] [Tr 4 "z" [] [Tr 5 "b" [] []]]]]) ["a"; "b"] = Some (Tr 5 "b" [] []).
Proof. reflexivity. Qed.

(* -------------------------------------------------------------------- C04 *)

(* Every reachable heap unfolds to a well-formed tree, so the next theorem applies to it. *)
Theorem C04_reachable_trees_are_well_formed : forall (V : Type) (h : heap V) p, reachable h -> p < length h ->
  exists t, unfold_tree (length h) h p = Some t /\ wf t.
Proof. exact @reachable_unfold. Qed.
Print Assumptions C04_reachable_trees_are_well_formed.

(* An expression path denotes item v in the variables of t exactly by the visibility rules. *)
Theorem C04_variables_expose_exactly_the_tree : forall (V : Type) (t : tree V) path v, wf t ->
  (select (CObject (variables t)) path = Some (CItem v) <-> resolves true t path v).
Proof. exact @variables_spec. Qed.
Print Assumptions C04_variables_expose_exactly_the_tree.

Example C04_nonvacuous :
  let t := Tr 0 "var" [("x", 1); ("a", 9)] [Tr 1 "a" [("y", 2)] []; Tr 2 "job" [("y", 3)] []] in
  wf t /\ select (CObject (variables t)) ["var"; "job"; "y"] = Some (CItem 3)
  /\ select (CObject (variables t)) ["a"] = Some (CItem 9)
  /\ select (CObject (variables t)) ["a"; "y"] = None
  /\ select (CObject (variables t)) ["var"; "var"; "x"] = None.
Proof.
  cbv zeta. split; [|repeat split].
  repeat (constructor; simpl; try tauto); intros [E|[]]; discriminate.
Qed.

(* -------------------------------------------------------------------- C05 *)

Theorem C05_concurrent_add_loses_nothing : forall ds next names sched1 sched2,
  NoDup (map fst ds) -> (forall c n, In (c, n) ds -> c < next) ->
  let s1 := crun (cinit ds next names) sched1 in
  let s2 := crun s1 sched2 in
  (exists added1 added2, cdowns s1 = ds ++ added1 /\ cdowns s2 = ds ++ added1 ++ added2) /\
  (forall i t c, nth_error (cthreads s1) i = Some t -> tpc t = PDone c ->
     nth_error names i = Some (tnm t) /\ In (c, tnm t) (cdowns s2)) /\
  NoDup (map fst (cdowns s1)) /\
  (forall c n, In (c, n) (cdowns s1) -> In (c, n) ds \/ (In n names /\ ~ In n (map snd ds))).
Proof. exact concurrent_no_loss. Qed.
Print Assumptions C05_concurrent_add_loses_nothing.

Theorem C05_mutual_exclusion : forall ds next names sched i j t u,
  NoDup (map fst ds) -> (forall c n, In (c, n) ds -> c < next) ->
  let s := crun (cinit ds next names) sched in
  nth_error (cthreads s) i = Some t -> nth_error (cthreads s) j = Some u ->
  in_cs (tpc t) -> in_cs (tpc u) -> i = j.
Proof. exact concurrent_mutex. Qed.
Print Assumptions C05_mutual_exclusion.

Theorem C05_no_deadlock : forall ds next names sched i t,
  NoDup (map fst ds) -> (forall c n, In (c, n) ds -> c < next) ->
  let s := crun (cinit ds next names) sched in
  nth_error (cthreads s) i = Some t -> (forall c, tpc t <> PDone c) ->
  exists j s', cstep s j = Some s'.
Proof. exact concurrent_progress. Qed.
Print Assumptions C05_no_deadlock.

(* Full uniqueness statement (refuted below):
     forall ds next names sched, NoDup (map fst ds) -> ... -> NoDup (map snd ds) ->
       NoDup (map snd (cdowns (crun (cinit ds next names) sched)))
   Proved when the goroutines add pairwise different names. *)
Theorem C05_unique_if_names_distinct_partial : forall ds next names sched,
  NoDup (map fst ds) -> (forall c n, In (c, n) ds -> c < next) ->
  NoDup (map snd ds) -> NoDup names ->
  NoDup (map snd (cdowns (crun (cinit ds next names) sched))).
Proof. exact concurrent_unique_if_distinct. Qed.
Print Assumptions C05_unique_if_names_distinct_partial.

(* Two goroutines that both check before either appends create two children "a", and
   the two calls return different nodes. *)
Theorem C05_unique_refuted : exists sched,
  let s := crun (cinit [] 1 ["a"; "a"]) sched in
  cdowns s = [(1, "a"); (2, "a")] /\ map tpc (cthreads s) = [PDone 1; PDone 2].
Proof. exists [0; 1; 0; 0; 0; 1; 1; 1]. split; reflexivity. Qed.
Print Assumptions C05_unique_refuted.

Example C05_nonvacuous : NoDup (map fst [(1, "x")]) /\ (forall c n, In (c, n) [(1, "x")] -> c < 2) /\
  cdowns (crun (cinit [(1, "x")] 2 ["a"; "x"]) [0; 1; 0; 0; 0]) = [(1, "x"); (2, "a")].
Proof.
  split; [repeat constructor; simpl; tauto|]. split; [|reflexivity].
  intros c n [E|[]]; inversion E; lia.
Qed.

(* -------------------------------------------------------------------- C06 *)

(* Full statement (refuted below): for every schedule the reader does not miss a child that
   is not the one being deleted.  Proved for children before the deleted one. *)
Theorem C06_reader_finds_earlier_child_partial : forall ds del tgt k c d sched,
  nth_error ds k = Some (c, tgt) ->
  (forall i c', nth_error ds i = Some (c', tgt) -> i = k) ->
  k < d -> (forall i c', i < d -> nth_error ds i = Some (c', del) -> False) ->
  ((exists cd, nth_error ds d = Some (cd, del)) \/ d = length ds) ->
  match dpcR (drun (dinit ds del tgt) sched) with
  | RMissed => False
  | RFound c' => c' = c
  | RScan _ _ => True
  end.
Proof. exact delete_spares_earlier. Qed.
Print Assumptions C06_reader_finds_earlier_child_partial.

(* Deleting "a" while looking "b" up: the reader has passed index 0 when "b" is shifted
   from index 1 to index 0, and the lookup reports that "b" does not exist. *)
Theorem C06_reader_never_misses_refuted : exists ds del tgt sched c,
  NoDup (map snd ds) /\ del <> tgt /\ In (c, tgt) ds /\
  dpcR (drun (dinit ds del tgt) sched) = RMissed /\
  In (c, tgt) (darr (drun (dinit ds del tgt) sched)).
Proof.
  exists [(1, "a"); (2, "b"); (3, "c")], "a", "b",
    [false; true; true; true; true; false; false; false], 2.
  split; [repeat constructor; simpl; intuition discriminate|]. split; [discriminate|].
  split; [simpl; auto|]. split; [reflexivity|]. vm_compute; auto.
Qed.
Print Assumptions C06_reader_never_misses_refuted.

Example C06_nonvacuous :
  dpcR (drun (dinit [(1, "a"); (2, "b"); (3, "c")] "b" "a") [true; true; false; true]) = RFound 1.
Proof. reflexivity. Qed.

(* -------------------------------------------------------------------- C07 *)

Theorem C07_defaults_installed : forall (Fn : Type) (defaults : list (string * Fn)) fresh ref nd ref',
  NoDup (keys defaults) ->
  default_tree_functions defaults fresh ref = Ok (nd, ref') ->
  lookup "attributes" ref' = Some (RTree nd) /\
  (forall id, lookup "attributes" ref = Some (RTree id) -> nd = id) /\
  (lookup "attributes" ref = None -> nd = fresh) /\
  (forall k, k <> "attributes" -> k <> "functions" -> lookup k ref' = lookup k ref) /\
  (lookup "functions" ref = None \/ lookup "functions" ref = Some RNil ->
     lookup "functions" ref' = Some (RFuncs defaults)) /\
  (forall t, lookup "functions" ref = Some (RFuncs t) -> exists t', lookup "functions" ref' = Some (RFuncs t') /\
      (forall k f, lookup k defaults = Some f -> lookup k t' = Some f) /\
      (forall k, lookup k defaults = None -> lookup k t' = lookup k t)) /\
  (forall x, lookup "functions" ref = Some (ROther x) -> lookup "functions" ref' = Some (ROther x)).
Proof. exact @default_tree_functions_spec. Qed.
Print Assumptions C07_defaults_installed.

(* The caller's own function of the same name as a default one is replaced. *)
Theorem C07_caller_function_kept_refuted : exists (defaults t : list (string * nat)) ref nd ref',
  NoDup (keys defaults) /\ lookup "functions" ref = Some (RFuncs t) /\ lookup "upper" t = Some 1 /\
  default_tree_functions defaults 5 ref = Ok (nd, ref') /\
  exists t', lookup "functions" ref' = Some (RFuncs t') /\ lookup "upper" t' = Some 0.
Proof.
  exists [("upper", 0)], [("upper", 1)], [("functions", RFuncs [("upper", 1)])], 5.
  eexists. split; [repeat constructor; simpl; tauto|]. repeat split.
  eexists; split; reflexivity.
Qed.
Print Assumptions C07_caller_function_kept_refuted.

Example C07_nonvacuous : default_tree_functions [("upper", 0)] 5
   [("x", ROther 3); ("functions", RFuncs [("mine", 1)])] =
  Ok (5, [("x", ROther 3); ("functions", RFuncs [("mine", 1); ("upper", 0)]); ("attributes", RTree 5)]).
Proof. reflexivity. Qed.
