(* The answers of the functions while parts of their arguments are unknown. *)

From Verif Require Import Base CtyModel FuncModel FuncSpec FuncProofs FuncList FuncUnknown FuncLookup.

Definition no_early (l : list (param * value)) : list mark := [].

(* ----- C69: what is known early stays ----- *)

(* Once the unknown parts of the arguments become known, errors remain errors and what was known
   of the result is still so. *)
Theorem C69_index : forall sn early v v' w w', typed v -> typed w -> fixed v -> fixed w -> closed_sets v -> closed_sets w ->
  completion v v' -> completion w w' ->
  final (call early (index_func sn) [v; w]) (call early (index_func sn) [v'; w']).
Proof. exact index_call_final. Qed.
Print Assumptions C69_index.

Theorem C69_sum : forall convert early v v', fixed v -> completion v v' ->
  final (call early (sum_func convert) [v]) (call early (sum_func convert) [v']).
Proof. exact sum_call_final. Qed.
Print Assumptions C69_sum.

Theorem C69_one : forall early v v', fixed v -> completion v v' -> final (call early one_func [v]) (call early one_func [v']).
Proof. exact one_call_final. Qed.
Print Assumptions C69_one.

Theorem C69_alltrue : forall early v v', typed v -> type_of v = list_of boolt -> completion v v' ->
  final (call early alltrue_func [v]) (call early alltrue_func [v']).
Proof.
  intros early v v' T E C. apply (bool_call_final early all_true v v' T E C all_true_type).
  intros l l' F _ _. exact (all_true_final l l' F).
Qed.
Print Assumptions C69_alltrue.
Theorem C69_anytrue : forall early v v', typed v -> type_of v = list_of boolt -> completion v v' ->
  final (call early anytrue_func [v]) (call early anytrue_func [v']).
Proof.
  intros early v v' T E C. apply (bool_call_final early (any_true false) v v' T E C (fun l r => any_true_type l false r)).
  intros l l' F B B'. apply any_true_final; auto.
Qed.
Print Assumptions C69_anytrue.

Theorem C69_transpose : forall early v v', fixed v -> completion v v' ->
  final (call early transpose_func [v]) (call early transpose_func [v']).
Proof. exact transpose_call_final. Qed.
Print Assumptions C69_transpose.

(* The conversions coalesce relies on are to have the same property. *)
Theorem C69_coalesce : forall convert unify early args args', convert_final convert ->
  Forall2 (fun v v' => completion v v' /\ type_of v' = type_of v) args args' ->
  final (call early (coalesce_func unify convert) args) (call early (coalesce_func unify convert) args').
Proof. intros convert unify early args args' Hc F. exact (coalesce_call_final convert unify Hc early args args' F). Qed.
Print Assumptions C69_coalesce.

(* lookup without a default *)
Theorem C69_lookup : forall convert quoted early m m' k k', fixed m -> completion m m' -> type_of k = str -> completion k k' ->
  final (call early (lookup_func convert quoted) [m; k]) (call early (lookup_func convert quoted) [m'; k']).
Proof. exact lookup_call_final. Qed.
Print Assumptions C69_lookup.
(* lookup with a default, which is to convert in the end where elements of a map are looked up *)
Theorem C69_lookup_default : forall convert quoted early, convert_final convert ->
  forall m m' k k' d d', fixed m -> completion m m' -> type_of k = str -> completion k k' -> fixed d -> completion d d' ->
  (kind_of (type_of m) = KMap -> exists r, convert d' (element_type (type_of m)) = Ok r) ->
  final (call early (lookup_func convert quoted) [m; k; d]) (call early (lookup_func convert quoted) [m'; k'; d']).
Proof. exact lookup_default_final. Qed.
Print Assumptions C69_lookup_default.
(* matchkeys, while the search set is known and has the type of the keys *)
Theorem C69_matchkeys : forall sn unify convert early, (forall t, unify [t; t] = Some t) -> (forall v, convert v (type_of v) = Ok v) ->
  forall v v' k k' s s' u t, type_of v = list_of u -> type_of k = list_of t -> type_of s = list_of t -> fixed v -> fixed k ->
  completion v v' -> completion k k' -> completion s s' -> wholly_known s = true ->
  final (call early (matchkeys_func sn unify convert) [v; k; s]) (call early (matchkeys_func sn unify convert) [v'; k'; s']).
Proof. exact matchkeys_final. Qed.
Print Assumptions C69_matchkeys.

(* length, of what does not turn out to be null *)
Theorem C69_length : forall graphemes early v v', fixed v -> completion v v' -> is_null v' = false ->
  final (call early (length_func graphemes) [v]) (call early (length_func graphemes) [v']).
Proof. exact length_call_final. Qed.
Print Assumptions C69_length.

(* length gives a known number for an unknown tuple, though it may be null, which is refused. *)
Theorem C69_length_refuted : forall graphemes early, exists v v', fixed v /\ completion v v' /\
  (exists r, call early (length_func graphemes) [v] = Ok r /\ is_known r = true) /\
  exists e, call early (length_func graphemes) [v'] = Err e.
Proof.
  intros graphemes early. exists (plain (SUnknown (Ty KTuple [("", str)]) "")), (plain (SNull (Ty KTuple [("", str)]))).
  split; [reflexivity|]. split.
  - split; [apply cp_unknown; [reflexivity|discriminate]|]. split; [constructor|reflexivity].
  - split; [eexists; split; reflexivity|eexists; reflexivity].
Qed.
Print Assumptions C69_length_refuted.

(* matchkeys gives a known list while the search set is unknown. *)
Theorem C69_matchkeys_refuted : exists unify convert, forall sn early, exists values keys set set',
  fixed set /\ completion set set' /\
  exists r r', call early (matchkeys_func sn unify convert) [values; keys; set] = Ok r /\ wholly_known r = true /\
    call early (matchkeys_func sn unify convert) [values; keys; set'] = Ok r' /\ shape_of r' = shape_of r /\
    List.length (elems r') <> List.length (elems r).
Proof.
  exists (fun ts => match ts with t :: _ => Some t | [] => None end), (fun v _ => Ok v). intros sn early.
  exists (list_val str [str_val "a"]), (list_val str [str_val "k"]), (list_val str [unknown str]), (list_val str [str_val "k"]).
  split; [reflexivity|]. split.
  - split.
    + apply cp_same; [discriminate|discriminate|]. constructor; [|constructor]. split; [reflexivity|].
      apply cp_unknown; [reflexivity|]. intros s _. destruct s; reflexivity.
    + split; [|reflexivity]. constructor. intros k v [E|[]]. injection E as <- <-. split; [constructor|reflexivity].
  - do 2 eexists. split; [reflexivity|]. split; [reflexivity|]. split; [reflexivity|]. split; [reflexivity|]. discriminate.
Qed.
Print Assumptions C69_matchkeys_refuted.

(* With a default, lookup gives the element that is there, and fails once the default turns out
   to be no text of a number. *)
Theorem C69_lookup_refuted : forall convert quoted early u e, convert (unknown str) numt = Ok u -> convert (str_val "x") numt = Err e ->
  exists m k d d', wholly_known m = true /\ wholly_known k = true /\ fixed d /\ completion d d' /\
    (exists r, call early (lookup_func convert quoted) [m; k; d] = Ok r /\ wholly_known r = true) /\
    exists e', call early (lookup_func convert quoted) [m; k; d'] = Err e'.
Proof.
  intros convert quoted early u e Hu He. exists (Val [] (SMap numt) [("a", num_val (int_val 1))]), (str_val "a"), (unknown str), (str_val "x").
  split; [reflexivity|]. split; [reflexivity|]. split; [reflexivity|]. split.
  - split; [apply cp_unknown; [reflexivity|intros s _; destruct s; reflexivity]|]. split; [constructor|reflexivity].
  - split.
    + eexists. split; [unfold call; cbn -[unknown numt]; rewrite Hu; reflexivity|reflexivity].
    + eexists. unfold call. cbn -[str_val numt]. rewrite He. reflexivity.
Qed.
Print Assumptions C69_lookup_refuted.

Example C69_sample : forall sn,
  let v := list_val str [str_val "a"; unknown str] in let v' := list_val str [str_val "a"; str_val "b"] in
  completion v v' /\ fixed v /\
  call no_early (index_func sn) [v; str_val "a"] = Ok (num_val (int_val 0)) /\
  (exists r, call no_early (index_func sn) [v; str_val "b"] = Ok r /\ is_known r = false) /\
  call no_early (index_func sn) [v'; str_val "b"] = Ok (num_val (int_val 1)) /\
  call no_early alltrue_func [list_val boolt [bool_val false; unknown boolt]] = Ok (bool_val false) /\
  call no_early anytrue_func [list_val boolt [unknown boolt; bool_val true]] = Ok (bool_val true).
Proof.
  intros sn v v'. split; [|split; [reflexivity|split; [reflexivity|split; [eexists; split; reflexivity|repeat split; reflexivity]]]].
  split; [|split; [|reflexivity]].
  - apply cp_same; [discriminate|discriminate|]. constructor; [|constructor; [|constructor]]; (split; [reflexivity|]).
    + apply cp_same; [discriminate|discriminate|constructor].
    + apply cp_unknown; [reflexivity|]. intros s _. destruct s; reflexivity.
  - constructor. intros k x [E|[E|[]]]; injection E as <- <-; (split; [constructor|reflexivity]).
Qed.

(* A conversion of texts alone has the property, and an unknown default gives an unknown result
   only if the key is not there. *)
Definition texts_only (v : value) (t : ty) : result value :=
  match shape_of v with
  | SUnknown _ _ => Ok (unknown t)
  | SStr _ => if conforms (type_of v) t then Ok v else Err "a text is required"
  | _ => Err "a text is required"
  end.
Example C69_lookup_sample : forall quoted,
  let m := Val [] (SMap str) [("a", str_val "x"); ("b", unknown str)] in
  let call_ := call no_early (lookup_func texts_only quoted) in
  convert_final texts_only /\
  call_ [m; str_val "a"; unknown str] = Ok (str_val "x") /\
  call_ [m; str_val "c"; unknown str] = Ok (unknown str) /\
  call_ [m; str_val "c"; str_val "y"] = Ok (str_val "y") /\
  call_ [m; unknown str; str_val "y"] = Ok (unknown str) /\
  call_ [Val [] SObj [("a", str_val "x")]; unknown str; str_val "y"] = Ok (unknown dyn) /\
  exists e, call_ [m; str_val "a"; num_val (int_val 1)] = Err e.
Proof.
  intros quoted m call_. split; [|repeat split; try reflexivity; eexists; reflexivity]. split.
  - intros v v' t (C & T & W). unfold texts_only. destruct (is_known v) eqn:K.
    + pose proof (completes_shape _ _ C K) as Sh. rewrite Sh. destruct (shape_of v) eqn:Sv; try (eexists; reflexivity); [unfold is_known in K; rewrite Sv in K; discriminate|].
      assert (Tv : type_of v' = type_of v).
      { destruct v, v'. cbn in Sh, Sv. subst. reflexivity. }
      rewrite Tv. destruct (conforms (type_of v) t); [left|]; eexists; eauto.
    + unfold is_known in K. destruct (shape_of v); try discriminate. apply final_unknown.
      * intros r. pose proof (known_top _ W) as K'. unfold is_known in K'. destruct (shape_of v'); try discriminate.
        destruct (conforms (type_of v') t) eqn:X; [|discriminate]. intro E. injection E as <-. exact X.
      * intro q. destruct (shape_of v'); try discriminate. destruct (conforms (type_of v') t); discriminate.
  - intros v t r. unfold texts_only. destruct (shape_of v); try discriminate.
    + intro E. injection E as <-. apply conforms_refl.
    + destruct (conforms (type_of v) t) eqn:X; [|discriminate]. intro E. injection E as <-. exact X.
Qed.

Example C69_matchkeys_sample : forall sn,
  let call_ := call no_early (matchkeys_func sn (fun ts => match ts with t :: _ => Some t | [] => None end) (fun v _ => Ok v)) in
  let values := list_val str [str_val "a"; str_val "b"] in let set := list_val str [str_val "k"] in
  call_ [values; list_val str [str_val "k"; unknown str]; set] = Ok (unknown (list_of str)) /\
  call_ [values; list_val str [str_val "k"; str_val "l"]; set] = Ok (list_val str [str_val "a"]) /\
  call_ [list_val str [unknown str; str_val "b"]; list_val str [str_val "k"; str_val "l"]; set] = Ok (unknown (list_of str)) /\
  call_ [values; unknown (list_of str); set] = Ok (unknown (list_of str)) /\
  call_ [values; list_val str [str_val "k"; unknown str]; list_val str []] = Ok (list_val str []) /\
  exists e, call_ [values; list_val str [unknown str]; set] = Err e.
Proof. intros sn call_ values set. repeat split; try reflexivity. eexists. reflexivity. Qed.
