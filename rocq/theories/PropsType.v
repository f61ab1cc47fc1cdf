(* Property theorems for the function type: C94. *)
From Coq Require Import List String Bool Arith ZArith Lia.
From Verif Require Import Base CtyModel FuncModel FuncSpec FuncProofs TypeModel.
Import ListNotations.
Local Open Scope string_scope.

(* Every value has a type, be it null, unknown or of a type that is not known, and the result
   holds it and is known.  It has the mark of types and every mark there is in the value. *)
Theorem C94_type : forall type_type capsule early v,
  exists r, call early (type_func type_type capsule) [v] = Ok r /\ shape_of r = capsule (type_of v) /\ elems r = [] /\
    forall m, In m (marks_of r) <-> m = "TypeType" \/ marked_in m v.
Proof.
  intros type_type capsule early v. unfold call. cbn [type_func f_params f_var f_type f_impl pair_args check_args p_null p_dyn p_type negb].
  rewrite conforms_dyn, andb_false_r. cbn [negb].
  replace (if kind_eqb (kind_of (type_of v)) KDyn then Ok false else Ok false) with (Ok false) by (destruct (kind_eqb _ _); reflexivity).
  cbn [bindr no_panic map existsb flat_map]. unfold unknown_arg. cbn [fst snd p_unknown negb]. rewrite andb_false_r. cbn [orb].
  unfold seen, taken_marks. cbn [fst snd p_marked]. rewrite type_unmark_deep. cbn [bindr no_panic].
  eexists. split; [reflexivity|]. split; [reflexivity|]. split; [reflexivity|].
  intro m. rewrite marks_with. cbn [with_marks plain marks_of]. rewrite app_nil_r, deep_marks_In.
  unfold type_mark. cbn. intuition congruence.
Qed.
Print Assumptions C94_type.

(* Nothing of the value but its type and marks is seen in the result. *)
Theorem C94_only : forall type_type capsule early v w r r',
  type_of v = type_of w -> (forall m, marked_in m v <-> marked_in m w) ->
  call early (type_func type_type capsule) [v] = Ok r -> call early (type_func type_type capsule) [w] = Ok r' ->
  shape_of r = shape_of r' /\ elems r = elems r' /\ forall m, In m (marks_of r) <-> In m (marks_of r').
Proof.
  intros type_type capsule early v w r r' T K H H'.
  destruct (C94_type type_type capsule early v) as (x & X & S & L & M). destruct (C94_type type_type capsule early w) as (y & Y & S' & L' & M').
  rewrite X in H. rewrite Y in H'. injection H as <-. injection H' as <-. rewrite S, S', L, L', T. split; [reflexivity|]. split; [reflexivity|].
  intro m. rewrite M, M', K. reflexivity.
Qed.
Print Assumptions C94_only.

(* Values of different types have different results, if capsules keep them apart. *)
Theorem C94_different : forall type_type capsule early v w r,
  (forall t u, capsule t = capsule u -> t = u) ->
  call early (type_func type_type capsule) [v] = Ok r -> call early (type_func type_type capsule) [w] = Ok r ->
  type_of v = type_of w.
Proof.
  intros type_type capsule early v w r I H H'.
  destruct (C94_type type_type capsule early v) as (x & X & S & _). destruct (C94_type type_type capsule early w) as (y & Y & S' & _).
  apply I. rewrite <- S, <- S'. congruence.
Qed.
Print Assumptions C94_different.

(* Other numbers of arguments are refused, and the result can be told by its mark. *)
Theorem C94_arguments : forall type_type capsule early args r,
  call early (type_func type_type capsule) args = Ok r -> List.length args = 1%nat /\ has r type_mark = true.
Proof.
  intros type_type capsule early args r H. destruct args as [|v [|w args]]; [discriminate H| |discriminate H].
  split; [reflexivity|]. destruct (C94_type type_type capsule early v) as (x & X & _ & _ & M). rewrite X in H. injection H as <-.
  unfold has, has_mark. apply existsb_exists. exists type_mark. split; [apply M; left; reflexivity|apply String.eqb_refl].
Qed.
Print Assumptions C94_arguments.

(* Has sees the marks of the value itself, not those of its elements. *)
Theorem C94_has : forall ms s l m, has (Val ms s l) m = true <-> In m ms.
Proof. intros ms s l m. unfold has. cbn [marks_of]. apply has_mark_In. Qed.
Print Assumptions C94_has.

(* A list that holds a sensitive text, with the type of a null in place of a capsule. *)
Example C94_sample :
  call (fun _ => []) (type_func dyn SNull) [list_val str [Val ["Sensitive"] (SStr "x") []]] = Ok (Val ["TypeType"; "Sensitive"] (SNull (list_of str)) [])
  /\ call (fun _ => []) (type_func dyn SNull) [Val [] (SUnknown dyn "") []] = Ok (Val ["TypeType"] (SNull dyn) [])
  /\ call (fun _ => []) (type_func dyn SNull) [Val [] (SNull numt) []] = Ok (Val ["TypeType"] (SNull numt) [])
  /\ call (fun _ => []) (type_func dyn SNull) [Val ["a"] STuple [("", str_val "x"); ("", bool_val true)]]
     = Ok (Val ["TypeType"; "a"] (SNull (Ty KTuple [("", str); ("", boolt)])) [])
  /\ has (Val ["TypeType"; "a"] (SNull str) []) "TypeType" = true /\ has (list_val str [Val ["a"] (SStr "x") []]) "a" = false.
Proof. repeat split. Qed.
