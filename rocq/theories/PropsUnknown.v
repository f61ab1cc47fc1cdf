(* Property theorems for unknown arguments: C99. *)
From Coq Require Import List String Bool Arith ZArith Lia.
From Verif Require Import Base CtyModel FuncModel FuncSpec FuncProofs FuncUnknown EncModel PathModel FilesetModel TimeModel CryptoModel TemplateModel CastModel NumberModel TypeModel CidrFuncModel CheckModel PropsDesc PropsCheck.
Import ListNotations.
Local Open Scope string_scope.

(* ----- the specification ----- *)
(* The functions with a parameter that has AllowUnknown: LengthFunc, CoalesceFunc, LookupFunc (the
   default), ListFunc and MapFunc (internal/lang/funcs/collection.go:25, 140, 238, 623, 644),
   StartsWithFunc (string.go:21), SensitiveFunc and NonsensitiveFunc (sensitive.go:19, 43), TypeFunc
   (conversion.go:111). *)
Definition allow_unknown : list string := ["length"; "coalesce"; "lookup"; "list"; "map"; "startswith"; "sensitive"; "nonsensitive"; "type"].
(* An argument, and the same argument once it is known: one that is unknown becomes any value of
   its type, one of unknown type any value. *)
Inductive filled : value -> value -> Prop :=
| fi_same v : filled v v
| fi_typed ms t p v : type_of v = t -> filled (Val ms (SUnknown t p) []) v
| fi_any ms l p v : filled (Val ms (SUnknown (Ty KDyn l) p) []) v.
Definition unknown_value (v : value) : Prop := exists ms t p l, v = Val ms (SUnknown t p) l.

(* ----- proofs ----- *)
Lemma instance_trans : forall a b c, instance_of a b -> instance_of b c -> instance_of a c.
Proof.
  induction a as [k l IH] using ty_ind'. intros b c A B. inversion B as [? lc|kb lb lc F]; subst; [constructor|].
  inversion A as [? la|ka la lb' G]; subst; [inversion B; constructor|]. constructor.
  clear A B. revert lb G lc F. induction l as [|[n t] l IHl]; intros lb G lc F; inversion G as [|? [n1 t1] ? lb1 [E1 X1] G']; subst; inversion F as [|? [n2 t2] ? lc1 [E2 X2] F']; subst; constructor.
  - cbn [fst snd] in *. split; [congruence|]. exact (IH n t (or_introl eq_refl) t1 t2 X1 X2).
  - apply (IHl (fun m u I => IH m u (or_intror I)) lb1 G' lc1 F').
Qed.

Definition never_unknown (f : func) : Prop := forallb (fun p => negb (p_unknown p)) (f_params f) = true /\ match f_var f with Some p => p_unknown p = false | None => True end.
Definition never_open (f : func) : Prop := forallb (fun p => negb (p_dyn p)) (f_params f) = true /\ match f_var f with Some p => p_dyn p = false | None => True end.
Definition pairs (l l' : list (param * value)) : Prop := Forall2 (fun pa pb => fst pa = fst pb /\ filled (snd pa) (snd pb)) l l'.
Lemma pair_filled : forall ps var args args', Forall2 filled args args' ->
  match pair_args ps var args with
  | None => pair_args ps var args' = None
  | Some l => exists l', pair_args ps var args' = Some l' /\ pairs l l'
  end.
Proof.
  intros ps var args args' F. revert ps. induction F as [|a a' args args' S F IH]; intros ps.
  - destruct ps; cbn [pair_args]; [|reflexivity]. exists []. split; [reflexivity|constructor].
  - destruct ps as [|p ps]; cbn [pair_args].
    + destruct var as [p|]; [|reflexivity]. specialize (IH []). destruct (pair_args [] (Some p) args) as [l|]; [|rewrite IH; reflexivity].
      destruct IH as (l' & B & D). rewrite B. eexists. split; [reflexivity|]. constructor; [split; [reflexivity|exact S]|exact D].
    + specialize (IH ps). destruct (pair_args ps var args) as [l|]; [|rewrite IH; reflexivity].
      destruct IH as (l' & B & D). rewrite B. eexists. split; [reflexivity|]. constructor; [split; [reflexivity|exact S]|exact D].
Qed.
Lemma pair_all : forall (P : param -> bool) ps var args l, pair_args ps var args = Some l -> forallb P ps = true -> match var with Some p => P p = true | None => True end ->
  Forall (fun pa => P (fst pa) = true) l.
Proof.
  intros P ps var args. revert ps. induction args as [|a args IH]; intros [|p ps] l H A V; cbn [pair_args] in H; try discriminate.
  - assert (l = []) by congruence. subst. constructor.
  - destruct var as [p|]; [|discriminate]. destruct (pair_args [] (Some p) args) as [l'|] eqn:E; [|discriminate]. assert (l = (p, a) :: l') by congruence. subst.
    constructor; [exact V|exact (IH [] l' E eq_refl V)].
  - cbn [forallb] in A. apply andb_true_iff in A. destruct A as [A1 A2]. destruct (pair_args ps var args) as [l'|] eqn:E; [|discriminate].
    assert (l = (p, a) :: l') by congruence. subst. constructor; [exact A1|exact (IH ps l' E A2 V)].
Qed.

Lemma unknown_no_null : forall ms t p l, is_null (Val ms (SUnknown t p) l) = false.
Proof. reflexivity. Qed.
(* What is refused stays refused, and what is of known type stays so. *)
Lemma check_filled : forall l l', pairs l l' ->
  match check_args l with
  | Ok false => check_args l' = Ok false \/ exists e, check_args l' = Err e
  | Ok true => True
  | Err _ => exists e, check_args l' = Err e
  | Panic _ => False
  end.
Proof.
  intros l l' A. induction A as [|[p v] [p' v'] l l' [P S] A IH]; [left; reflexivity|]. cbn [fst snd] in *. subst p'. cbn [check_args].
  inversion S as [u|ms t q u T|ms dl q u]; subst.
  - destruct (is_null v' && _); [eauto|]. destruct (kind_eqb _ _); [destruct (p_dyn p); [exact IH|exact I]|]. destruct (negb (conforms _ _)); [eauto|exact IH].
  - rewrite unknown_no_null. cbn [andb]. cbn [type_of]. destruct (is_null v' && _).
    + destruct (kind_eqb _ _); [destruct (p_dyn p)|destruct (negb _); [eauto|]]; try exact I; destruct (check_args l) as [[]| |]; eauto; destruct IH.
    + destruct (kind_eqb _ _); [destruct (p_dyn p); [exact IH|exact I]|]. destruct (negb (conforms _ _)); [eauto|exact IH].
  - rewrite unknown_no_null. cbn [andb type_of kind_of kind_eqb]. destruct (p_dyn p) eqn:D; [|exact I].
    destruct (check_args l) as [[]| |]; [exact I| |destruct IH as (e & ->)|destruct IH];
      repeat match goal with |- context [if ?b then _ else _] => destruct b end; eauto.
Qed.

Lemma seen_filled : forall p v v', filled v v' -> filled (seen (p, v)) (seen (p, v')).
Proof.
  intros p v v' S. unfold seen. cbn [fst snd]. destruct (p_marked p); [exact S|]. inversion S as [u|ms t q u T|ms dl q u]; subst; [constructor|apply fi_typed|apply fi_any].
  apply type_unmark_deep.
Qed.
Lemma seen_type : forall pa, type_of (seen pa) = type_of (snd pa).
Proof. intros [p v]. unfold seen. destruct (p_marked _); [reflexivity|apply type_unmark_deep]. Qed.

(* The type announced for unknown arguments is that of the known ones, or more open. *)
Definition steady (f : func) : Prop := forall l l', pairs l l' -> check_args l = Ok false -> (exists args, pair_args (f_params f) (f_var f) args = Some l) ->
  match f_type f (map seen l) with
  | Ok t => forall t', f_type f (map seen l') = Ok t' -> conforms t' t = true
  | _ => forall t', f_type f (map seen l') <> Ok t'
  end.
Definition types_only (f : func) : Prop := forall vs vs', map type_of vs = map type_of vs' -> f_type f vs = f_type f vs'.
Lemma types_filled : forall l l', pairs l l' -> check_args l = Ok false -> Forall (fun pa => negb (p_dyn (fst pa)) = true) l ->
  map type_of (map seen l) = map type_of (map seen l').
Proof.
  intros l l' A. induction A as [|[p v] [p' v'] l l' [P S] A IH]; intros C F; [reflexivity|]. cbn [fst snd] in *. subst p'.
  inversion F as [|? ? N F']; subst. cbn [fst] in N. apply negb_true_iff in N. cbn [check_args] in C. rewrite N in C. cbn [map]. rewrite !seen_type. cbn [snd].
  destruct (is_null v && _); [discriminate|]. destruct (kind_eqb _ _) eqn:K; [discriminate|]. destruct (negb _); [discriminate|]. f_equal; [|exact (IH C F')].
  inversion S as [u|ms t q u T|ms dl q u]; subst; [reflexivity..|discriminate K].
Qed.
Lemma same_steady : forall r r' : result ty, r = r' ->
  match r with Ok t => forall t', r' = Ok t' -> conforms t' t = true | _ => forall t', r' <> Ok t' end.
Proof. intros r r' <-. destruct r as [t|?|?]; [|discriminate..]. intros t' E. assert (t' = t) by congruence. subst. apply conforms_refl. Qed.
Lemma types_steady : forall f, never_open f -> types_only f -> steady f.
Proof.
  intros f [N V] T l l' A C (args & P). apply same_steady, T, types_filled; [exact A|exact C|].
  apply (pair_all (fun p => negb (p_dyn p)) _ _ _ _ P N). destruct (f_var f); [rewrite V; reflexivity|exact I].
Qed.
Lemma to_steady : forall convert quoted friendly can_convert want, (forall l t, can_convert (Ty KDyn l) t = true) ->
  steady (to_func convert quoted friendly can_convert want).
Proof.
  intros convert quoted friendly can_convert want HC l l' A _ _. cbn [f_type to_func].
  destruct A as [|[p v] [p' v'] l l' [P S] A]; [cbn; discriminate|]. destruct A as [|? ? ? ? ? A]; [|cbn; discriminate].
  cbn [map]. rewrite !seen_type. cbn [fst snd] in *. inversion S as [u|ms t q u T|ms dl q u]; subst.
  - apply same_steady. reflexivity.
  - apply same_steady. reflexivity.
  - cbn [type_of]. rewrite HC, orb_true_r. intros t'. destruct (_ || _); [|discriminate]. intro E. assert (t' = want) by congruence. subst. apply conforms_refl.
Qed.
Lemma filled_known : forall v v', filled v v' -> is_known v = true -> v' = v.
Proof. intros v v' S K. inversion S; subst; [reflexivity|discriminate..]. Qed.
Lemma templatefile_steady : forall x0 x1 x2 x3 x4 x5 x6 x7 x8 x9 x10 x11, steady (templatefile_func x0 x1 x2 x3 x4 x5 x6 x7 x8 x9 x10 x11).
Proof.
  intros. intros l l' A _ _. destruct A as [|[p v] [p' v'] l l' [P S] A]; [apply same_steady; reflexivity|].
  destruct A as [|[q w] [q' w'] l l' [Q U] A]; [apply same_steady; reflexivity|]. destruct A as [|? ? ? ? ? A]; [|apply same_steady; reflexivity].
  cbn [fst snd] in *. subst p' q'. cbn [map]. pose proof (seen_filled p v v' S) as S'. pose proof (seen_filled q w w' U) as U'.
  destruct (is_known (seen (p, v))) eqn:K1; [destruct (is_known (seen (q, w))) eqn:K2|].
  - rewrite (filled_known _ _ S' K1), (filled_known _ _ U' K2). apply same_steady. reflexivity.
  - cbn [f_type templatefile_func]. rewrite K1, K2. cbn [andb negb]. intros. apply conforms_dyn.
  - cbn [f_type templatefile_func]. rewrite K1. cbn [andb negb]. intros. apply conforms_dyn.
Qed.

Lemma call_filled : forall f, never_unknown f -> steady f ->
  (forall e args r, Forall typed args -> call e f args = Ok r -> exists t, return_type f args = Ok t /\ instance_of (type_of r) t) ->
  forall e args args', Forall2 filled args args' -> Forall typed args' -> Exists unknown_value args ->
  match call e f args with
  | Ok r => unknown_value r /\ forall r', call e f args' = Ok r' -> instance_of (type_of r') (type_of r)
  | Err _ => exists m, call e f args' = Err m
  | Panic _ => False
  end.
Proof.
  intros f [N V] ST CT e args args' F Ty X. pose proof (pair_filled (f_params f) (f_var f) args args' F) as PF. 
  pose proof (fun r' H => CT e args' r' Ty H) as CT'. unfold return_type in CT'.
  assert (CE : call e f args' = call e f args') by reflexivity. unfold call at 1 in CE. unfold call at 1.
  destruct (pair_args (f_params f) (f_var f) args) as [l|] eqn:P; [|rewrite PF in CE; eauto].
  destruct PF as (l' & P' & A). rewrite P' in CE, CT'. pose proof (check_filled l l' A) as CF.
  assert (UA : existsb unknown_arg l = true).
  { pose proof (pair_all (fun p => negb (p_unknown p)) _ _ _ _ P N) as G.
    assert (G' : Forall (fun pa : param * value => negb (p_unknown (fst pa)) = true) l) by (apply G; destruct (f_var f); [rewrite V; reflexivity|exact I]).
    clear -P X G'. revert X. assert (M : forall ps var args l, pair_args ps var args = Some l -> map snd l = args).
    { clear. intros ps var args. revert ps. induction args as [|b args IH]; intros ps l H.
      - destruct ps; cbn in H; [|discriminate]. assert (l = []) by congruence. subst l. reflexivity.
      - destruct ps as [|p ps]; cbn [pair_args] in H.
        + destruct var as [p|]; [|discriminate]. destruct (pair_args [] (Some p) args) as [l'|] eqn:E; [|discriminate]. assert (l = (p, b) :: l') by congruence. subst l. cbn [map snd]. f_equal. exact (IH [] l' E).
        + destruct (pair_args ps var args) as [l'|] eqn:E; [|discriminate]. assert (l = (p, b) :: l') by congruence. subst l. cbn [map snd]. f_equal. exact (IH ps l' E). }
    rewrite <- (M _ _ _ _ P). intro X. apply Exists_exists in X. destruct X as (v & I & ms & t & q & es & E). apply in_map_iff in I. destruct I as ([p w] & W & I).
    cbn [snd] in W. subst w. apply existsb_exists. exists (p, v). split; [exact I|]. rewrite Forall_forall in G'. specialize (G' _ I).
    unfold unknown_arg. cbn [fst snd] in *. rewrite G', E. reflexivity. }
  rewrite UA. assert (UV : forall ms t, unknown_value (with_marks ms (unknown t))) by (intros; do 4 eexists; reflexivity).
  destruct (check_args l) as [[]|?|?] eqn:C; cbn [bindr].
  - split; [apply UV|]. intros r' _. rewrite type_with. constructor.
  - pose proof (ST l l' A C (ex_intro _ args P)) as S. destruct (f_type f (map seen l)) as [t|?|?]; cbn [no_panic bindr].
    + split; [apply UV|]. intros r' H. destruct (CT' r' H) as (t' & T' & J). rewrite type_with. cbn [type_of unknown plain].
      destruct CF as [CF|[e' CF]]; rewrite CF in T'; cbn [bindr] in T'; [|discriminate T'].
      apply (instance_trans _ t' _ J). apply conforms_instance, S. destruct (f_type f (map seen l')); [exact T'|discriminate..].
    + destruct CF as [CF|[e' CF]]; rewrite CF in CE; cbn [bindr] in CE; [|eauto].
      destruct (f_type f (map seen l')) as [t'|?|?]; [destruct (S t' eq_refl)|cbn [no_panic bindr] in CE; eauto..].
    + destruct CF as [CF|[e' CF]]; rewrite CF in CE; cbn [bindr] in CE; [|eauto].
      destruct (f_type f (map seen l')) as [t'|?|?]; [destruct (S t' eq_refl)|cbn [no_panic bindr] in CE; eauto..].
  - destruct CF as [e' CF]. rewrite CF in CE. cbn [bindr] in CE. eauto.
  - exact CF.
Qed.

Lemma cons_inj : forall {A} (a b : A) l l', a :: l = b :: l' -> a = b /\ l = l'.
Proof. intros A a b l l' E. split; congruence. Qed.
Ltac by_types := apply types_steady; [split; [reflexivity|exact Logic.I || reflexivity]|];
  first [intros ? ? _; reflexivity
        |let vs := fresh in let vs' := fresh in let E := fresh "E" in intros vs vs' E; cbn in E |- *;
         repeat match goal with |- context [match ?x with [] => _ | _ => _ end] => is_var x; destruct x; cbn [map] in E; try discriminate E; try reflexivity end;
         repeat match goal with E : _ :: _ = _ :: _ |- _ => apply cons_inj in E; let A := fresh "A" in destruct E as [A E] end;
         repeat match goal with A : type_of _ = type_of _ |- _ => rewrite A in *; clear A end; reflexivity].

Section Functions.
Variables nfc quoted : string -> string.
Variable encoding : Type.
Variable iana : string -> option encoding.
Variable iana_name : encoding -> option string.
Variables encoder decoder : encoding -> string -> option string.
Variables gzip h enc sha1 : string -> string.
Variable itoa : Z -> string.
Variable blowfish : string -> Z -> string.
Variable key : Type.
Variable parse_key : string -> result (option key).
Variable decrypt : key -> string -> result string.
Variable random : result string.
Variables cwd base : string.
Variable home : result string.
Variable open_path : string -> opened.
Variable stat_path : string -> stat.
Variable stat_error : string -> string.
Variable glob : string -> result (list string).
Variable same_number : number -> number -> bool.
Variable unify : list ty -> option ty.
Variable convert : value -> ty -> result value.
Variable can_convert : ty -> ty -> bool.
Variable friendly : ty -> string.
Variable graphemes : string -> Z.
Variable replace_regexp : string -> string -> string -> result string.
Variable local : Z -> Z.
Variable float_part : Z -> Z -> nat -> Z.
Variable now : Z.
Variable static_time : gotime.
Variable mlog : float -> float.
Variable mpow : float -> float -> float.
Variable quotient : dyadic -> dyadic -> float.
Variable early : list (param * value) -> list mark.
Variable expr : Type.
Variable parse_template : string -> string -> result expr.
Variable references : expr -> list string.
Variable evaluate : expr -> list (string * value) -> list (string * func) -> result value.
Variable valid_identifier : string -> bool.
Variable given : list (string * func).
Variable type_type : ty.
Variable capsule : ty -> shape.


(* Conversions give the type that was asked for, and the values that type gives are of its type. *)
Hypothesis C : forall v t r, convert v t = Ok r -> conforms (type_of r) t = true.
Hypothesis D : forall t, type_of (plain (capsule t)) = type_type.
(* Everything can be converted from an unknown type. *)
Hypothesis O : forall l t, can_convert (Ty KDyn l) t = true.

Lemma all_steady : forall n f, In (n, f) (functions nfc quoted encoding iana iana_name encoder decoder gzip h enc sha1 itoa blowfish key parse_key decrypt random cwd base home open_path stat_path stat_error glob same_number unify convert can_convert friendly graphemes replace_regexp local float_part now static_time mlog mpow quotient early expr parse_template references evaluate valid_identifier given type_type capsule) -> ~ In n allow_unknown -> never_unknown f /\ steady f.
Proof.
  intros n f I R. assert (B : existsb (String.eqb n) allow_unknown = false).
  { destruct (existsb _ _) eqn:E; [|reflexivity]. apply existsb_exists in E. destruct E as (m & J & Q). apply String.eqb_eq in Q. subst m. contradiction. }
  clear R. unfold functions in I. cbn [In] in I.
  repeat (destruct I as [I|I]; [injection I as <- <-; first [exfalso; clear -B; vm_compute in B; discriminate B|clear B; split; [split; [reflexivity|exact Logic.I || reflexivity]|
    first [apply templatefile_steady|apply to_steady; exact O|by_types]]] |]).
  contradiction.
Qed.

(* A call of the other functions on unknown arguments gives an unknown value, of a type that the
   result has once the arguments are known; and what is refused then was to be refused anyway. *)
Theorem C99_consistent : forall n f, In (n, f) (functions nfc quoted encoding iana iana_name encoder decoder gzip h enc sha1 itoa blowfish key parse_key decrypt random cwd base home open_path stat_path stat_error glob same_number unify convert can_convert friendly graphemes replace_regexp local float_part now static_time mlog mpow quotient early expr parse_template references evaluate valid_identifier given type_type capsule) -> ~ In n allow_unknown ->
  forall e args args', Forall2 filled args args' -> Forall typed args' -> Exists unknown_value args ->
  match call e f args with
  | Ok r => unknown_value r /\ forall r', call e f args' = Ok r' -> instance_of (type_of r') (type_of r)
  | Err _ => exists m, call e f args' = Err m
  | Panic _ => False
  end.
Proof.
  intros n f I N. destruct (all_steady n f I N) as [U S]. apply (call_filled f U S).
  intros e args r Ty H. eapply C97_type; eassumption.
Qed.
End Functions.
Print Assumptions C99_consistent.

(* Of the functions that look at unknown arguments these two give them back as they are, with other
   marks, and type gives the same as for the known ones; for startswith see C50, for length, coalesce
   and lookup C69; list and map refuse everything. *)
Theorem C99_value : forall f, f = sensitive_func \/ f = nonsensitive_func -> forall e ms t p, exists ms',
  call e f [Val ms (SUnknown t p) []] = Ok (Val ms' (SUnknown t p) []) /\
  forall ms1 s l, exists ms1', call e f [Val ms1 s l] = Ok (Val ms1' s l).
Proof.
  intros f H e ms t p. assert (U : forall ms1 s l, unknown_arg (value_param, Val ms1 s l) = false) by (intros; apply andb_false_r).
  assert (A : forall ms1 s l, exists ms1', call e f [Val ms1 s l] = Ok (Val ms1' s l)).
  { intros ms1 s l. destruct H as [-> | ->]; eexists; unfold call; cbn -[kind_eqb conforms type_of is_null unknown_arg with_marks];
      rewrite andb_false_r, conforms_dyn; destruct (kind_eqb _ _); cbn [negb bindr]; rewrite U; reflexivity. }
  destruct (A ms (SUnknown t p) []) as (ms' & E). exists ms'. split; [exact E|exact A].
Qed.
Theorem C99_type_of : forall type_type capsule e ms t p v, type_of v = t ->
  exists r r', call e (type_func type_type capsule) [Val ms (SUnknown t p) []] = Ok r /\ call e (type_func type_type capsule) [v] = Ok r' /\
  shape_of r = shape_of r'.
Proof.
  intros type_type capsule e ms t p v T. unfold call. cbn -[kind_eqb conforms type_of is_null unmark_deep with_marks]. rewrite !andb_false_r.
  rewrite !conforms_dyn, !type_unmark_deep. cbn [type_of]. rewrite T. unfold unknown_arg. cbn [fst snd p_unknown negb]. rewrite !andb_false_r.
  destruct (kind_eqb (kind_of t) KDyn); cbn [bindr negb existsb orb]; do 2 eexists; (split; [reflexivity|]); (split; [reflexivity|]); rewrite !shape_with; reflexivity.
Qed.
Print Assumptions C99_value.
Print Assumptions C99_type_of.

(* The first element of a list that is not known yet, a number refused already, and one that is
   refused only when it is known. *)
Example C99_sample : forall convert e,
  let some := plain (SUnknown (list_of str) "") in
  filled some (list_val str [str_val "a"]) /\ ~ filled some (str_val "a") /\ ~ filled (str_val "a") (str_val "b") /\ unknown_value some /\
  call (fun _ => []) one_func [some] = Ok (unknown str) /\ call e one_func [list_val str [str_val "a"]] = Ok (str_val "a") /\
  call e one_func [list_val str [str_val "a"; str_val "b"]] = Err "must be a list, set, or tuple value with either zero or one elements" /\
  call e signum_func [some] = Err "inappropriate value" /\
  call (fun _ => []) (sum_func convert) [unknown dyn] = Ok (unknown dyn) /\ call e (sum_func convert) [str_val "a"] <> Ok (str_val "a").
Proof.
  intros. split; [apply fi_typed; reflexivity|]. split; [intro H; inversion H; discriminate|]. split; [intro H; inversion H|].
  split; [do 4 eexists; reflexivity|]. repeat (split; [vm_compute; reflexivity|]). vm_compute. discriminate.
Qed.
