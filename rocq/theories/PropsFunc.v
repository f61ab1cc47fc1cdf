(* The properties of the functions of internal/lang/funcs. *)

From Verif Require Import Base CtyModel FuncModel FuncSpec FuncProofs FuncText.
From Coq Require Import Lia.

(* ----- C44: alltrue and anytrue ----- *)

Theorem C44_alltrue : forall early ms l, typed (Val ms (SList boolt) l) ->
  exists r, call early alltrue_func [Val ms (SList boolt) l] = Ok r
    /\ (forall m, marked_in m (Val ms (SList boolt) l) <-> In m (marks_of r))
    /\ ((exists b, shape_of r = SBool b /\
          forall bs, Forall2 (fun kv c => may_be (snd kv) c) l bs -> (b = true <-> forall c, In c bs -> c = true))
        \/ (shape_of r = SUnknown boolt "" /\ exists k v, In (k, v) l /\ is_known v = false)).
Proof.
  intros early ms l T. inversion T as [| | | | |? ? ? H| | | |]; subst.
  assert (Hb : forall k v, In (k, v) l -> bool_item v) by (intros k v I; destruct (H k v I); apply bool_items; assumption).
  unfold alltrue_func. rewrite bool_list_call.
  destruct (all_true_spec (unmark_all l) (unmark_items l Hb)) as (r & R & M & S). rewrite R. cbn [no_panic bindr].
  eexists. split; [reflexivity|]. split.
  { intros m. rewrite marks_with, M, deep_marks_In. cbn [In]. tauto. }
  rewrite shape_with. destruct S as [(b & Sb & C)|(U & k & v & I & K)].
  - left. exists b. split; [exact Sb|]. intros bs F. rewrite (C bs (unmark_may l bs F)), forallb_forall. reflexivity.
  - right. split; [exact U|]. exact (unmark_unknown l k v I K).
Qed.
Print Assumptions C44_alltrue.

Theorem C44_anytrue : forall early ms l, typed (Val ms (SList boolt) l) ->
  exists r, call early anytrue_func [Val ms (SList boolt) l] = Ok r
    /\ (forall m, marked_in m (Val ms (SList boolt) l) <-> In m (marks_of r))
    /\ ((exists b, shape_of r = SBool b /\
          forall bs, Forall2 (fun kv c => may_be (snd kv) c) l bs -> (b = true <-> exists c, In c bs /\ c = true))
        \/ (shape_of r = SUnknown boolt "" /\ exists k v, In (k, v) l /\ is_known v = false)).
Proof.
  intros early ms l T. inversion T as [| | | | |? ? ? H| | | |]; subst.
  assert (Hb : forall k v, In (k, v) l -> bool_item v) by (intros k v I; destruct (H k v I); apply bool_items; assumption).
  unfold anytrue_func. rewrite bool_list_call.
  destruct (any_true_spec (unmark_all l) false (unmark_items l Hb)) as (r & R & M & S). rewrite R. cbn [no_panic bindr].
  eexists. split; [reflexivity|]. split.
  { intros m. rewrite marks_with, M, deep_marks_In. cbn [In]. tauto. }
  rewrite shape_with. destruct S as [(Sb & C)|[(Sb & _ & C)|(U & [X|(k & v & I & K)])]]; [| |discriminate|].
  - left. exists true. split; [exact Sb|]. intros bs F. specialize (C bs (unmark_may l bs F)).
    apply existsb_exists in C. tauto.
  - left. exists false. split; [exact Sb|]. intros bs F. specialize (C bs (unmark_may l bs F)).
    split; [discriminate|]. intros X. apply existsb_exists in X. congruence.
  - right. split; [exact U|]. exact (unmark_unknown l k v I K).
Qed.
Print Assumptions C44_anytrue.

Definition no_marks (l : list (param * value)) : list mark := [].
Example C44_sample :
  call no_marks alltrue_func [list_val boolt [bool_val true; plain (SNull boolt); unknown boolt]] = Ok (bool_val false)
  /\ call no_marks alltrue_func [list_val boolt [bool_val true; unknown boolt]] = Ok (unknown boolt)
  /\ call no_marks anytrue_func [list_val boolt [unknown boolt; Val ["m"] (SBool true) []]] = Ok (Val ["m"] (SBool true) [])
  /\ call no_marks anytrue_func [list_val boolt [unknown boolt; bool_val false]] = Ok (unknown boolt).
Proof. repeat split. Qed.

(* ----- C45: coalesce ----- *)

(* The arguments converted to their common type are cs. *)
Theorem C45_coalesce : forall early unify convert args t cs,
  unify (map type_of args) = Some t ->
  Forall2 (fun a c => convert (unmark_deep a) t = Ok c) args cs ->
  ((forall c, In c cs -> passed_over t c) /\ exists e, call early (coalesce_func unify convert) args = Err e)
  \/ exists pre c post, cs = (pre ++ c :: post)%list /\ (forall x, In x pre -> passed_over t x) /\ ~ passed_over t c
     /\ call early (coalesce_func unify convert) args
        = Ok (with_marks (flat_map deep_marks args) (if is_known c then c else unknown t)).
Proof.
  intros early unify convert args t cs U F. unfold call, coalesce_func. cbn [f_params f_var].
  rewrite pair_var, all_checked. cbn [bindr f_type f_impl]. rewrite all_seen, all_known, all_taken.
  replace (map type_of (map unmark_deep args)) with (map type_of args)
    by (rewrite map_map; apply map_ext; intros a; symmetry; apply type_unmark_deep).
  rewrite U. cbn [no_panic bindr].
  assert (F' : Forall2 (fun a c => convert a t = Ok c) (map unmark_deep args) cs).
  { clear U. induction F; constructor; assumption. }
  destruct (coalesce_spec convert t _ _ F') as [(e & -> & All)|(pre & c & post & E & P & N & ->)].
  - left. split; [exact All|]. eexists. reflexivity.
  - right. exists pre, c, post. auto.
Qed.
Print Assumptions C45_coalesce.

Definition same_types (l : list ty) : option ty := match l with t :: _ => Some t | [] => None end.
Definition no_convert (v : value) (t : ty) : result value := Ok v.
Example C45_sample :
  call no_marks (coalesce_func same_types no_convert) [plain (SNull str); str_val ""; str_val "b"; unknown str] = Ok (str_val "b")
  /\ call no_marks (coalesce_func same_types no_convert) [str_val ""; unknown str; str_val "b"] = Ok (unknown str)
  /\ exists e, call no_marks (coalesce_func same_types no_convert) [str_val ""; plain (SNull str)] = Err e.
Proof. repeat split. eexists. reflexivity. Qed.

(* ----- C46: index ----- *)

(* C46 in full: the first position of a value, an error exactly if it is absent. *)
Definition C46_full (sn : number -> number -> bool) : Prop := forall early ms l t w,
  typed (Val ms (SList t) l) -> settled (Val ms (SList t) l) -> typed w -> settled w ->
  (exists n k v r, nth_error l n = Some (k, v) /\ equal_values sn v w
     /\ (forall n' k' v', (n' < n)%nat -> nth_error l n' = Some (k', v') -> ~ equal_values sn v' w)
     /\ call early (index_func sn) [Val ms (SList t) l; w] = Ok r /\ shape_of r = SNum (int_val (Z.of_nat n)))
  \/ ((forall k v, In (k, v) l -> ~ equal_values sn v w)
      /\ exists e, call early (index_func sn) [Val ms (SList t) l; w] = Err e).

(* It holds for values that are not null, in lists and tuples. *)
Theorem C46_index_partial : forall sn early ms s l w,
  (s = STuple \/ exists t, s = SList t) ->
  typed (Val ms s l) -> settled (Val ms s l) -> typed w -> settled w -> is_null w = false ->
  (exists n k v r, nth_error l n = Some (k, v) /\ equal_values sn v w
     /\ (forall n' k' v', (n' < n)%nat -> nth_error l n' = Some (k', v') -> ~ equal_values sn v' w)
     /\ call early (index_func sn) [Val ms s l; w] = Ok r /\ shape_of r = SNum (int_val (Z.of_nat n))
     /\ forall m, marked_in m (Val ms s l) \/ marked_in m w <-> In m (marks_of r))
  \/ ((forall k v, In (k, v) l -> ~ equal_values sn v w)
      /\ exists e, call early (index_func sn) [Val ms s l; w] = Err e).
Proof.
  intros sn early ms s l w Hs T S Tw Sw Nw. unfold index_func.
  assert (N : is_null (Val ms s l) = false) by (destruct Hs as [->|(t & ->)]; reflexivity).
  rewrite (call_any2 early _ _ _ _ N Nw S Sw). cbn [static no_panic bindr].
  rewrite unmark_deep_eq.
  assert (It : iterate (Val [] s (unmark_all l)) = Ok (unmark_all l)) by (destruct Hs as [->|(t & ->)]; reflexivity).
  assert (Ki : match kind_of (type_of (Val [] s (unmark_all l))) with KList | KTuple => True | _ => False end)
    by (destruct Hs as [->|(t & ->)]; exact I).
  destruct (kind_of (type_of (Val [] s (unmark_all l)))); try contradiction; rewrite It; cbn [bindr].
  all: assert (Hl : forall k v, In (k, v) (unmark_all l) -> typed v /\ settled v)
    by (intros k v I; apply unmark_in in I; destruct I as (x & -> & I); destruct (settled_in _ _ _ _ _ T S I);
        split; [apply typed_unmark|apply settled_unmark]; assumption).
  all: destruct (index_from_spec sn (unmark_deep w) (unmark_all l) 0 (typed_unmark w Tw) (settled_unmark w Sw) Hl)
    as [(n & k & v & E & Q & F & R)|(F & e & R)].
  all: try (right; split;
    [intros k v I X; apply (F k (unmark_deep v)); [unfold unmark_all; apply in_map_iff; exists (k, v); auto|apply (proj2 (eqv_unmark sn _ _)); exact X]
    |destruct (unmark_all l); [eexists; reflexivity|rewrite R; eexists; reflexivity]]).
  all: left; destruct (unmark_all l) as [|x r] eqn:El; [destruct n; discriminate|]; rewrite <- El in *; rewrite R.
  all: rewrite nth_unmark in E; destruct (nth_error l n) as [[k0 v0]|] eqn:E0; [|discriminate];
    cbn [option_map fst snd] in E; injection E as <- <-.
  all: exists n, k0, v0; eexists; split; [exact E0|]; split; [apply (proj1 (eqv_unmark sn _ _)); exact Q|]; split;
    [intros n' k' v' L E' X; apply (F n' k' (unmark_deep v')); [exact L|rewrite nth_unmark, E'; reflexivity|apply (proj2 (eqv_unmark sn _ _)); exact X]|];
    split; [reflexivity|]; split; [reflexivity|];
    intros m; cbn [num_val plain]; rewrite marks_with, in_app_iff, !deep_marks_In; cbn [marks_of plain num_val In]; tauto.
Qed.
Print Assumptions C46_index_partial.

(* A null is never found, although it is in the list. *)
Theorem C46_null_refuted : forall sn, ~ C46_full sn.
Proof.
  intros sn H.
  specialize (H no_marks [] [("", plain (SNull str))] str (plain (SNull str))).
  destruct H as [(n & k & v & r & _ & _ & _ & E & _)|(F & _)].
  - apply ty_list. intros k v [E|[]]. injection E as <- <-. split; [constructor|reflexivity].
  - split; reflexivity.
  - constructor.
  - split; reflexivity.
  - discriminate.
  - apply (F "" (plain (SNull str))); [left; reflexivity|constructor].
Qed.
Print Assumptions C46_null_refuted.

Definition same_num (a b : number) : bool :=
  match a, b with Fin _ x, Fin _ y => Z.eqb (num x * pow2 (den y)) (num y * pow2 (den x)) | Inf s, Inf s' => Bool.eqb s s' | _, _ => false end.
Example C46_sample :
  call no_marks (index_func same_num) [list_val str [str_val "a"; str_val "b"; str_val "b"]; Val ["m"] (SStr "b") []]
    = Ok (Val ["m"] (SNum (int_val 1)) [])
  /\ exists e, call no_marks (index_func same_num) [list_val str [str_val "a"]; str_val "b"] = Err e.
Proof. split; [reflexivity|eexists; reflexivity]. Qed.

(* ----- C50: startswith ----- *)

Theorem C50_unknown : forall early ms ms' known pre r b,
  call early startswith_func [Val ms (SUnknown str known) []; Val ms' (SStr pre) []] = Ok r ->
  shape_of r = SBool b -> forall rest, b = true <-> exists q, known +++ rest = pre +++ q.
Proof.
  intros early ms ms' known pre r b H S rest. unfold call in H. cbn in H.
  destruct (String.eqb pre "") eqn:E1.
  { apply String.eqb_eq in E1. subst. cbn in H. injection H as <-. cbn in S. injection S as <-.
    split; [intros _; exists (known +++ rest); reflexivity|reflexivity]. }
  destruct (negb (String.eqb known "") && prefix pre known) eqn:E2.
  { apply andb_true_iff in E2. destruct E2 as [_ E2]. cbn in H. injection H as <-. cbn in S. injection S as <-.
    split; [intros _|reflexivity]. apply prefix_app in E2. destruct E2 as (q & ->).
    exists (q +++ rest). apply append_assoc || (symmetry; apply append_assoc). }
  destruct (negb (String.eqb known "") && Nat.leb (String.length pre) (String.length known)) eqn:E3.
  { apply andb_true_iff in E3. destruct E3 as [E0 E3]. cbn in H. injection H as <-. cbn in S. injection S as <-.
    split; [discriminate|]. intros X. apply Nat.leb_le in E3. apply (prefix_longer _ _ _ E3) in X.
    rewrite E0, X in E2. discriminate. }
  cbn in H. injection H as <-. discriminate.
Qed.
Print Assumptions C50_unknown.

Theorem C50_known : forall early ms ms' s pre, exists r,
  call early startswith_func [Val ms (SStr s) []; Val ms' (SStr pre) []] = Ok r
  /\ exists b, shape_of r = SBool b /\ (b = true <-> exists q, s = pre +++ q).
Proof.
  intros early ms ms' s pre. unfold call. cbn. eexists. split; [reflexivity|].
  exists (prefix pre s). split; [reflexivity|apply prefix_app].
Qed.
Print Assumptions C50_known.

Example C50_sample :
  call no_marks startswith_func [plain (SUnknown str "https://"); str_val "http"] = Ok (bool_val true)
  /\ call no_marks startswith_func [plain (SUnknown str "https://"); str_val "ftp"] = Ok (bool_val false)
  /\ call no_marks startswith_func [plain (SUnknown str "ht"); str_val "http"] = Ok (unknown boolt)
  /\ call no_marks startswith_func [unknown str; str_val ""] = Ok (bool_val true).
Proof. repeat split. Qed.

(* ----- C52: sensitive and nonsensitive ----- *)

(* C52 in full, for sensitive: the mark is added and everything else unchanged. *)
Definition C52_full : Prop := forall early v, exists r, call early sensitive_func [v] = Ok r
  /\ shape_of r = shape_of v /\ elems r = elems v
  /\ forall m, In m (marks_of r) <-> m = sensitive_mark \/ In m (marks_of v).

(* The value is unchanged, but sensitive is the only mark left at its top. *)
Theorem C52_sensitive_partial : forall early v, exists r, call early sensitive_func [v] = Ok r
  /\ shape_of r = shape_of v /\ elems r = elems v
  /\ forall m, In m (marks_of r) <-> m = sensitive_mark.
Proof.
  intros early [ms s l]. unfold sensitive_func. rewrite call_value. cbn [no_panic bindr].
  eexists. split; [reflexivity|]. rewrite !shape_with, !elems_with. split; [reflexivity|]. split; [reflexivity|].
  intros m. rewrite !marks_with. cbn. intuition.
Qed.
Print Assumptions C52_sensitive_partial.

Theorem C52_refuted : ~ C52_full.
Proof.
  intros H. destruct (H no_marks (Val ["other"] (SStr "x") [])) as (r & E & _ & _ & M).
  cbn in E. injection E as <-. specialize (M "other"). cbn in M. intuition discriminate.
Qed.
Print Assumptions C52_refuted.

Theorem C52_nonsensitive : forall early v, exists r, call early nonsensitive_func [v] = Ok r
  /\ shape_of r = shape_of v /\ elems r = elems v
  /\ forall m, In m (marks_of r) <-> In m (marks_of v) /\ m <> sensitive_mark.
Proof.
  intros early [ms s l]. unfold nonsensitive_func. rewrite call_value. cbn [no_panic bindr].
  eexists. split; [reflexivity|]. rewrite !shape_with, !elems_with. split; [reflexivity|]. split; [reflexivity|].
  intros m. rewrite !marks_with, filter_In. cbn [unmark marks_of In].
  rewrite negb_true_iff, String.eqb_neq. tauto.
Qed.
Print Assumptions C52_nonsensitive.

(* There and back, for a value without marks at its top. *)
Theorem C52_round_trip_partial : forall early s l, exists r,
  call early sensitive_func [Val [] s l] = Ok r /\ call early nonsensitive_func [r] = Ok (Val [] s l).
Proof.
  intros early s l. unfold sensitive_func, nonsensitive_func. rewrite call_value. cbn [no_panic bindr].
  eexists. split; [reflexivity|]. rewrite call_value. reflexivity.
Qed.
Print Assumptions C52_round_trip_partial.

Example C52_sample : call no_marks nonsensitive_func [Val ["a"; "Sensitive"] STuple [("", Val ["Sensitive"] (SStr "x") [])]]
  = Ok (Val ["a"] STuple [("", Val ["Sensitive"] (SStr "x") [])]).
Proof. reflexivity. Qed.

(* ----- C47: lookup ----- *)

(* The type that a default is converted to. *)
Definition default_type (s : shape) (d : value) : ty := match s with SMap t => t | _ => type_of d end.

(* Missing from the full statement: maps and keys that are unknown, see C47_unknown. *)
Theorem C47_lookup_partial : forall convert quoted early mm s l km key ds r,
  s = SObj \/ (exists t, s = SMap t) ->
  call early (lookup_func convert quoted) (Val mm s l :: Val km (SStr key) [] :: ds) = Ok r ->
  (forall m, In m mm \/ In m km -> In m (marks_of r)) /\
  match lookup key l with
  | Some v => shape_of r = shape_of v /\ elems r = elems v /\ forall m, In m (marks_of v) -> In m (marks_of r)
  | None => exists d c, ds = [d] /\ convert d (default_type s d) = Ok c
            /\ shape_of r = shape_of c /\ elems r = elems c /\ forall m, In m (marks_of c) -> In m (marks_of r)
  end.
Proof.
  intros convert quoted early mm s l km key ds r Hs H. rewrite (call_lookup convert quoted early mm s l km key ds Hs) in H.
  apply bindr_Ok in H. destruct H as (t & Ht & H). apply bindr_Ok in H. destruct H as (x & Hx & H).
  rewrite no_panic_Ok in Ht. rewrite no_panic_Ok in Hx. injection H as <-.
  rewrite (lookup_impl_known convert quoted mm s l km key ds t Hs) in Hx.
  destruct (lookup key l) as [v|] eqn:El.
  - injection Hx as <-. split.
    + intros m I. rewrite !marks_with, union_In. tauto.
    + rewrite !shape_with, !elems_with. repeat split; try reflexivity. intros m I. rewrite !marks_with. tauto.
  - destruct ds as [|d [|d' ds]]; try discriminate. apply bindr_Ok in Hx. destruct Hx as (c & Hc & Hx). injection Hx as <-.
    assert (t = default_type s d) as ->.
    { unfold lookup_type in Ht. change (Nat.ltb 1 (List.length [d])) with false in Ht. cbv iota in Ht. destruct Hs as [->|(u & ->)].
      - change (kind_of (type_of (Val mm SObj l))) with KObj in Ht. cbn [shape_of] in Ht.
        rewrite obj_type_lookup, El in Ht. cbn [option_map] in Ht. injection Ht as <-. reflexivity.
      - cbn [kind_of type_of map_of element_type ty_args] in Ht. destruct (convert d u); try discriminate.
        injection Ht as <-. reflexivity. }
    split.
    + intros m I. rewrite !marks_with, union_In. tauto.
    + exists d, c. rewrite !shape_with, !elems_with. repeat split; try reflexivity; try exact Hc.
      intros m I. rewrite !marks_with. tauto.
Qed.
Print Assumptions C47_lookup_partial.

(* A key that is there is found, with a default that can be converted or without one. *)
Theorem C47_found : forall convert quoted early mm s l km key v,
  s = SObj \/ (exists t, s = SMap t) -> lookup key l = Some v -> forall ds,
  ds = [] \/ (exists d c, ds = [d] /\ convert d (default_type s d) = Ok c) ->
  exists r, call early (lookup_func convert quoted) (Val mm s l :: Val km (SStr key) [] :: ds) = Ok r.
Proof.
  intros convert quoted early mm s l km key v Hs El ds Hd. rewrite (call_lookup convert quoted early mm s l km key ds Hs).
  assert (T : exists t, lookup_type convert quoted (Val mm s l :: Val km (SStr key) [] :: ds) = Ok t).
  { destruct Hs as [->|(u & ->)]; destruct Hd as [->|(d & c & -> & Hc)].
    - eexists. unfold lookup_type. change (kind_of (type_of (Val mm SObj l))) with KObj.
      cbn [shape_of List.length Nat.ltb Nat.leb]. rewrite obj_type_lookup, El. reflexivity.
    - eexists. unfold lookup_type. change (kind_of (type_of (Val mm SObj l))) with KObj.
      cbn [shape_of List.length Nat.ltb Nat.leb]. rewrite obj_type_lookup, El. reflexivity.
    - eexists. reflexivity.
    - eexists. cbn [lookup_type List.length Nat.ltb Nat.leb kind_of type_of map_of element_type ty_args].
      cbn [default_type] in Hc. rewrite Hc. reflexivity. }
  destruct T as (t & ->). cbn [no_panic bindr]. rewrite (lookup_impl_known convert quoted mm s l km key ds t Hs), El.
  eexists. reflexivity.
Qed.
Print Assumptions C47_found.

(* There is at most one default. *)
Theorem C47_arity : forall convert quoted early mm s l km key d d' ds, s = SObj \/ (exists t, s = SMap t) ->
  exists e, call early (lookup_func convert quoted) (Val mm s l :: Val km (SStr key) [] :: d :: d' :: ds) = Err e.
Proof.
  intros convert quoted early mm s l km key d d' ds Hs. rewrite (call_lookup convert quoted early mm s l km key _ Hs).
  unfold lookup_type. cbn [List.length Nat.ltb Nat.leb no_panic bindr]. eauto.
Qed.
Print Assumptions C47_arity.

(* With an unknown map or key the result is unknown, and its marks are the library's: none is lost
   if those are at least the marks of the arguments. *)
Theorem C47_unknown : forall convert quoted early m k ds r,
  (forall l p v x, In (p, v) l -> In x (marks_of v) -> In x (early l)) ->
  is_known m = false \/ is_known k = false ->
  call early (lookup_func convert quoted) (m :: k :: ds) = Ok r ->
  is_known r = false /\ forall x, In x (marks_of m) \/ In x (marks_of k) -> In x (marks_of r).
Proof.
  intros convert quoted early m k ds r L U H. unfold call, lookup_func in H. cbn [f_params f_var pair_args] in H. rewrite pair_var in H.
  match type of H with context [check_args ?a] => set (l := a) in * end.
  assert (Q : forall x, In x (marks_of m) \/ In x (marks_of k) -> In x (early l)).
  { intros x [X|X]; [eapply L; [left; reflexivity|exact X]|eapply L; [right; left; reflexivity|exact X]]. }
  assert (E : existsb unknown_arg l = true).
  { unfold l. cbn [existsb]. unfold unknown_arg at 1 2. cbn [fst snd p_unknown negb]. rewrite !andb_true_r.
    destruct U as [->| ->]; [reflexivity|]. cbn [negb]. rewrite orb_true_l. apply orb_true_r. }
  apply bindr_Ok in H. destruct H as (stop & _ & H). destruct stop.
  - injection H as <-. split; [reflexivity|]. intros x X. cbn [marks_of]. apply union_In. right. exact (Q x X).
  - apply bindr_Ok in H. destruct H as (t & _ & H). rewrite E in H. injection H as <-. split; [reflexivity|].
    intros x X. cbn [marks_of]. apply union_In. right. exact (Q x X).
Qed.
Print Assumptions C47_unknown.

(* If it leaves the marks of parameters that take marks to the function, as for results that are
   known, they are lost. *)
Theorem C47_unknown_refuted : forall convert quoted early, (forall l, early l = flat_map taken_marks l) ->
  exists m k r, In sensitive_mark (marks_of m) /\ call early (lookup_func convert quoted) [m; k] = Ok r /\ marks_of r = [].
Proof.
  intros convert quoted early L. exists (Val [sensitive_mark] (SUnknown (map_of str) "") []), (str_val "k"). eexists.
  split; [left; reflexivity|]. split; [cbn; reflexivity|]. cbn [marks_of with_marks unknown plain]. rewrite L. reflexivity.
Qed.
Print Assumptions C47_unknown_refuted.

Example C47_sample :
  call no_marks (lookup_func no_convert id) [Val ["m"] (SMap str) [("a", str_val "x")]; Val ["k"] (SStr "a") []; str_val "d"]
    = Ok (Val ["m"; "k"] (SStr "x") [])
  /\ call no_marks (lookup_func no_convert id) [Val ["m"] (SMap str) [("a", str_val "x")]; str_val "b"; Val ["d"] (SStr "d") []]
    = Ok (Val ["d"; "m"] (SStr "d") []).
Proof. split; reflexivity. Qed.

(* ----- C51: sensitive values in messages ----- *)

(* A redacted text says nothing about the value. *)
Theorem C51_redact : forall quoted s s' ms, In sensitive_mark ms -> redact quoted s ms = redact quoted s' ms.
Proof.
  intros quoted s s' ms I. apply has_mark_In in I. unfold redact. rewrite I. reflexivity.
Qed.
Print Assumptions C51_redact.

(* C51 in full, for lookup: the error for a missing sensitive key is the same whatever the key. *)
Definition C51_full (convert : value -> ty -> result value) (quoted : string -> string) : Prop :=
  forall early mm s l km key key', s = SObj \/ (exists t, s = SMap t) -> In sensitive_mark km ->
  lookup key l = None -> lookup key' l = None ->
  call early (lookup_func convert quoted) [Val mm s l; Val km (SStr key) []]
  = call early (lookup_func convert quoted) [Val mm s l; Val km (SStr key') []].

(* It holds for maps. *)
Theorem C51_lookup_partial : forall convert quoted early mm t l km key key', In sensitive_mark km ->
  lookup key l = None -> lookup key' l = None ->
  call early (lookup_func convert quoted) [Val mm (SMap t) l; Val km (SStr key) []]
  = call early (lookup_func convert quoted) [Val mm (SMap t) l; Val km (SStr key') []].
Proof.
  intros convert quoted early mm t l km key key' I E E'.
  assert (Hs : is_lookup_shape (SMap t)) by (right; eauto).
  rewrite !(call_lookup convert quoted early mm (SMap t) l km _ [] Hs).
  change (lookup_type convert quoted [Val mm (SMap t) l; Val km (SStr key) []]) with (@Ok ty t).
  change (lookup_type convert quoted [Val mm (SMap t) l; Val km (SStr key') []]) with (@Ok ty t).
  cbn [no_panic bindr]. rewrite !(lookup_impl_known convert quoted mm (SMap t) l km _ [] t Hs), E, E'.
  rewrite (C51_redact quoted key key' km I). reflexivity.
Qed.
Print Assumptions C51_lookup_partial.

(* For objects the message has the sensitive key in it. *)
Theorem C51_object_refuted : forall convert quoted, exists early l km key, In sensitive_mark km
  /\ call early (lookup_func convert quoted) [Val [] SObj l; Val km (SStr key) []]
     = Err ("the given object has no attribute " +++ quoted key).
Proof.
  intros convert quoted. exists no_marks, [("a", str_val "x")], [sensitive_mark], "secret".
  split; [left; reflexivity|reflexivity].
Qed.
Print Assumptions C51_object_refuted.

Theorem C51_refuted : forall convert quoted, quoted "secret" <> quoted "other" -> ~ C51_full convert quoted.
Proof.
  intros convert quoted N H.
  specialize (H no_marks [] SObj [] [sensitive_mark] "secret" "other" (or_introl eq_refl) (or_introl eq_refl) eq_refl eq_refl).
  cbn in H. injection H as H. contradiction.
Qed.
Print Assumptions C51_refuted.

(* parseint: the message about a sensitive text that is not a number says nothing about it. *)
Theorem C51_parseint : forall quoted friendly itoa early ms s s' bm n, In sensitive_mark ms ->
  (forall base, to_int (Val [] (SNum n) []) = Ok base -> parse_int base s = None /\ parse_int base s' = None) ->
  call early (parseint_func quoted friendly itoa) [Val ms (SStr s) []; Val bm (SNum n) []]
  = call early (parseint_func quoted friendly itoa) [Val ms (SStr s') []; Val bm (SNum n) []].
Proof.
  intros quoted friendly itoa early ms s s' bm n I H. unfold call, parseint_func. cbn -[to_int parse_int redact].
  destruct (to_int (Val [] (SNum n) [])) as [base|e|e]; cbn [bindr no_panic]; try reflexivity.
  destruct (H base eq_refl) as [E E'].
  destruct ((base <? 2)%Z || (62 <? base)%Z); [reflexivity|]. rewrite E, E', (C51_redact quoted s s' ms I). reflexivity.
Qed.
Print Assumptions C51_parseint.
(* Nor about a sensitive base. *)
Theorem C51_parseint_base : forall quoted friendly itoa early ms s bm n n' e e', In sensitive_mark bm ->
  (forall base z, number_is n base \/ number_is n' base -> (2 <= base <= 62)%Z /\ ~ numeral base s z) ->
  (exists base, number_is n base) -> (exists base, number_is n' base) ->
  call early (parseint_func quoted friendly itoa) [Val ms (SStr s) []; Val bm (SNum n) []] = Err e ->
  call early (parseint_func quoted friendly itoa) [Val ms (SStr s) []; Val bm (SNum n') []] = Err e' -> e = e'.
Proof.
  intros quoted friendly itoa early ms s bm n n' e e' I H (b & B) (b' & B').
  assert (P : forall b, number_is n b \/ number_is n' b -> parse_int b s = None).
  { intros a A. destruct (parse_int a s) as [z|] eqn:E; [|reflexivity]. apply parse_int_spec in E.
    destruct (H a z A) as [_ X]. destruct (X E). }
  destruct (H b 0%Z (or_introl B)) as [R _], (H b' 0%Z (or_intror B')) as [R' _].
  pose proof (P b (or_introl B)) as E. pose proof (P b' (or_intror B')) as E'.
  apply to_int_spec in B, B'. apply has_mark_In in I.
  unfold call, parseint_func. cbn -[to_int parse_int redact append has_mark]. rewrite B, B'. cbn [bindr].
  replace ((b <? 2)%Z || (62 <? b)%Z) with false by lia. replace ((b' <? 2)%Z || (62 <? b')%Z) with false by lia.
  rewrite E, E', I. cbn [no_panic bindr]. congruence.
Qed.
Print Assumptions C51_parseint_base.

(* The to... functions: for a value with something sensitive in it the message of a failed
   conversion depends on the type of the value only. *)
Theorem C51_conversions : forall convert quoted friendly can_convert want early v v' e e',
  is_known v = true -> is_known v' = true ->
  marked_in sensitive_mark v -> marked_in sensitive_mark v' -> type_of v = type_of v' ->
  convert v want = Err e -> convert v' want = Err e' ->
  call early (to_func convert quoted friendly can_convert want) [v]
  = call early (to_func convert quoted friendly can_convert want) [v'].
Proof.
  intros convert quoted friendly can_convert want early v v' e e' K K' M M' T E E'. unfold call, to_func.
  cbn [f_params f_var pair_args check_args p_null p_dyn p_type negb]. rewrite !andb_false_r, !conforms_dyn, <- T.
  cbn [negb]. destruct (kind_eqb (kind_of (type_of v)) KDyn); cbn [bindr map f_type f_impl existsb];
    unfold seen, unknown_arg; cbn [fst snd p_marked]; rewrite <- T, K, K'; cbn [negb andb orb];
    (destruct (ty_eqb (type_of v) want || can_convert (type_of v) want); cbn [no_panic bindr]; [|reflexivity]);
    rewrite E, E'; unfold contains_mark;
    rewrite (proj2 (has_mark_In _ _) (proj2 (deep_marks_In _ _) M)), (proj2 (has_mark_In _ _) (proj2 (deep_marks_In _ _) M'));
    rewrite !type_unmark_deep, T; reflexivity.
Qed.
Print Assumptions C51_conversions.

Example C51_sample :
  call no_marks (lookup_func no_convert id) [Val [] (SMap str) []; Val [sensitive_mark] (SStr "secret") []]
    = Err "lookup failed to find key (sensitive value)"
  /\ call no_marks (lookup_func no_convert id) [Val [] (SMap str) []; str_val "public"]
    = Err "lookup failed to find key public"
  /\ call no_marks (parseint_func id (fun _ => "") (fun _ => "16")) [Val [sensitive_mark] (SStr "xyz") []; num_val (int_val 16)]
    = Err "cannot parse (sensitive value) as a base 16 integer".
Proof. repeat split. Qed.
