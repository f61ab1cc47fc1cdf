(* Property theorems for the types of results: C97. *)
From Coq Require Import List String Bool Arith ZArith Lia.
From Verif Require Import Base CtyModel FuncModel FuncSpec FuncProofs FuncUnknown EncModel PathModel FilesetModel TimeModel CryptoModel TemplateModel CastModel NumberModel TypeModel CidrFuncModel CheckModel PropsDesc.
Import ListNotations.
Local Open Scope string_scope.

(* ----- the specification ----- *)
(* A type is an instance of another: parts that are left open may be anything. *)
Inductive instance_of : ty -> ty -> Prop :=
| io_open t l : instance_of t (Ty KDyn l)
| io_same k l l' : Forall2 (fun a b => fst a = fst b /\ instance_of (snd a) (snd b)) l l' -> instance_of (Ty k l) (Ty k l').

(* ----- proofs ----- *)
Lemma conforms_instance : forall a b, conforms a b = true -> instance_of a b.
Proof.
  induction a as [k l IH] using ty_ind'. intros [k' l'] C. cbn [conforms] in C. apply orb_true_iff in C. destruct C as [C|C].
  - destruct k'; try discriminate. constructor.
  - apply andb_true_iff in C. destruct C as [K C]. assert (k = k') by (destruct k, k'; congruence || discriminate). subst k'.
    constructor. clear K. revert l' C. induction l as [|[n t] l IHl]; intros [|[n' t'] l'] C; try discriminate; [constructor|].
    apply andb_true_iff in C. destruct C as [C C2]. apply andb_true_iff in C. destruct C as [C0 C1].
    apply String.eqb_eq in C0. subst n'. constructor; [split; [reflexivity|exact (IH n t (or_introl eq_refl) t' C1)]|]. apply IHl; [|exact C2].
    intros m u I. exact (IH m u (or_intror I)).
Qed.
Definition fits_own (f : func) : Prop := forall vs t r, f_type f vs = Ok t -> f_impl f vs t = Ok r -> conforms (type_of r) t = true.
Lemma ok_inj {A} : forall (a b : A), Ok a = Ok b -> a = b.
Proof. congruence. Qed.
Lemma type_unmark : forall v, type_of (unmark v) = type_of v.
Proof. intros [ms s l]. reflexivity. Qed.
Ltac crunch2 := repeat match goal with
  | H : bindr _ _ = Ok _ |- _ => apply bindr_Ok in H; let Q := fresh "Q" in destruct H as (? & Q & H)
  | H : Ok _ = Ok _ |- _ => apply ok_inj in H; subst
  | H : (match ?x with _ => _ end) = Ok _ |- _ => destruct x; try discriminate H
  | H : Err _ = Ok _ |- _ => discriminate H
  | H : Panic _ = Ok _ |- _ => discriminate H
  end; rewrite ?type_with; try reflexivity.
Ltac open T H := match type of H with f_impl ?f _ _ = _ => let rec hd g := match g with ?g' _ => hd g' | _ => unfold g in T, H end in hd f end;
  unfold on_string, two_strings, gone_func in T, H; cbn [f_impl f_type] in T, H; unfold bad_args, static in T, H.
Ltac easy_fits := intros; intros vs t r T H; open T H; crunch2.

Lemma all_true_type : forall l r, all_true l = Ok r -> type_of r = boolt.
Proof. induction l as [|[k v] l IH]; cbn [all_true]; intros r H; [crunch2|]. destruct (shape_of v) eqn:S; try match goal with b : bool |- _ => destruct b end; crunch2; auto. Qed.
Lemma any_true_type : forall l b r, any_true b l = Ok r -> type_of r = boolt.
Proof. induction l as [|[k v] l IH]; cbn [any_true]; intros b r H; [destruct b; crunch2|]. destruct (shape_of v) eqn:S; try match goal with c : bool, Q : _ = SBool ?c |- _ => destruct c end; crunch2; eauto. Qed.
Lemma index_from_type : forall sn w l i r, index_from sn i l w = Ok r -> type_of r = numt.
Proof.
  induction l as [|[k v] l IH]; cbn [index_from]; intros i r H; [discriminate|]. destruct (equals _ _ _) as [[]|]; crunch2. exact (IH _ _ H).
Qed.

Lemma abspath_func_fits : forall x0 x1, fits_own (abspath_func x0 x1).
Proof. easy_fits. Qed.
Lemma base64decode_func_fits : forall x0 x1, fits_own (base64decode_func x0 x1).
Proof. easy_fits. Qed.
Lemma base64encode_func_fits : forall x0, fits_own (base64encode_func x0).
Proof. easy_fits. Qed.
Lemma base64gzip_func_fits : forall x0 x1, fits_own (base64gzip_func x0 x1).
Proof. easy_fits. Qed.
Lemma hash_func_fits : forall x0 x1 x2, fits_own (hash_func x0 x1 x2).
Proof. easy_fits. Qed.
Lemma basename_func_fits : forall x0, fits_own (basename_func x0).
Proof. easy_fits. Qed.
Lemma dirname_func_fits : forall x0, fits_own (dirname_func x0).
Proof. easy_fits. Qed.
Lemma pathexpand_func_fits : forall x0 x1, fits_own (pathexpand_func x0 x1).
Proof. easy_fits. Qed.
Lemma bcrypt_func_fits : forall x0 x1 x2, fits_own (bcrypt_func x0 x1 x2).
Proof. easy_fits. Qed.
Lemma rsadecrypt_func_fits : forall x0 x1 x2 x3 x4, fits_own (rsadecrypt_func x0 x1 x2 x3 x4).
Proof. easy_fits. Qed.
Lemma uuid_func_fits : forall x0 x1, fits_own (uuid_func x0 x1).
Proof. easy_fits. Qed.
Lemma uuidv5_func_fits : forall x0 x1 x2 x3, fits_own (uuidv5_func x0 x1 x2 x3).
Proof. easy_fits. Qed.
Lemma sum_func_fits : forall x0, fits_own (sum_func x0).
Proof. easy_fits. Qed.
Lemma transpose_func_fits : fits_own (transpose_func).
Proof. easy_fits. all: try apply conforms_refl. Qed.
Lemma file_func_fits : forall x0 x1 x2 x3 x4 x5, fits_own (file_func x0 x1 x2 x3 x4 x5).
Proof. easy_fits. Qed.
Lemma file_hash_func_fits : forall x0 x1 x2 x3 x4 x5, fits_own (file_hash_func x0 x1 x2 x3 x4 x5).
Proof. easy_fits. Qed.
Lemma fileexists_func_fits : forall x0 x1 x2 x3, fits_own (fileexists_func x0 x1 x2 x3).
Proof. easy_fits. Qed.
Lemma fileset_func_fits : forall x0 x1 x2 x3 x4 x5, fits_own (fileset_func x0 x1 x2 x3 x4 x5).
Proof. easy_fits. Qed.
Lemma signum_func_fits : fits_own (signum_func).
Proof. easy_fits. Qed.
Lemma parseint_func_fits : forall x0 x1 x2, fits_own (parseint_func x0 x1 x2).
Proof. easy_fits. Qed.
Lemma startswith_func_fits : fits_own (startswith_func).
Proof. easy_fits. Qed.
Lemma endswith_func_fits : fits_own (endswith_func).
Proof. easy_fits. Qed.
Lemma strcontains_func_fits : fits_own (strcontains_func).
Proof. easy_fits. Qed.
Lemma replace_func_fits : forall x0, fits_own (replace_func x0).
Proof. easy_fits. Qed.
Lemma textencodebase64_func_fits : forall x0 x1 x2 x3 x4 x5, fits_own (textencodebase64_func x0 x1 x2 x3 x4 x5).
Proof. easy_fits. Qed.
Lemma textdecodebase64_func_fits : forall x0 x1 x2 x3 x4 x5, fits_own (textdecodebase64_func x0 x1 x2 x3 x4 x5).
Proof. easy_fits. Qed.
Lemma urlencode_func_fits : forall x0, fits_own (urlencode_func x0).
Proof. easy_fits. Qed.
Lemma timeadd_func_fits : forall x0 x1 x2, fits_own (timeadd_func x0 x1 x2).
Proof. easy_fits. Qed.
Lemma timecmp_func_fits : forall x0 x1, fits_own (timecmp_func x0 x1).
Proof. easy_fits. Qed.
Lemma timestamp_func_fits : forall x0 x1, fits_own (timestamp_func x0 x1).
Proof. easy_fits. Qed.
Lemma static_timestamp_func_fits : forall x0 x1, fits_own (static_timestamp_func x0 x1).
Proof. easy_fits. Qed.
Lemma cidrhost_func_fits : fits_own (cidrhost_func).
Proof. easy_fits. Qed.
Lemma cidrnetmask_func_fits : fits_own (cidrnetmask_func).
Proof. easy_fits. Qed.
Lemma cidrsubnet_func_fits : fits_own (cidrsubnet_func).
Proof. easy_fits. Qed.
Lemma cidrsubnets_func_fits : fits_own (cidrsubnets_func).
Proof. easy_fits. Qed.
Lemma list_func_fits : fits_own (list_func).
Proof. easy_fits. Qed.
Lemma map_func_fits : fits_own (map_func).
Proof. easy_fits. Qed.
Lemma length_func_fits : forall x0, fits_own (length_func x0).
Proof. easy_fits. all: unfold length_val; repeat match goal with |- context [match ?x with _ => _ end] => destruct x end; rewrite ?type_with; reflexivity. Qed.
Lemma log_func_fits : forall x0 x1, fits_own (log_func x0 x1).
Proof. easy_fits. all: unfold float_val in *; crunch2. Qed.
Lemma pow_func_fits : forall x0, fits_own (pow_func x0).
Proof. easy_fits. all: unfold float_val in *; crunch2. Qed.
Lemma alltrue_func_fits : fits_own (alltrue_func).
Proof. easy_fits. rewrite (all_true_type _ _ H). reflexivity. Qed.
Lemma anytrue_func_fits : fits_own (anytrue_func).
Proof. easy_fits. rewrite (any_true_type _ _ _ H). reflexivity. Qed.
Lemma index_func_fits : forall x0, fits_own (index_func x0).
Proof. easy_fits. all: erewrite index_from_type by eassumption; reflexivity. Qed.
Lemma sensitive_func_fits : fits_own (sensitive_func).
Proof. easy_fits. rewrite type_unmark. apply conforms_refl. Qed.
Lemma nonsensitive_func_fits : fits_own (nonsensitive_func).
Proof. easy_fits. rewrite type_unmark. apply conforms_refl. Qed.
Lemma templatefile_func_fits : forall x0 x1 x2 x3 x4 x5 x6 x7 x8 x9 x10 x11, fits_own (templatefile_func x0 x1 x2 x3 x4 x5 x6 x7 x8 x9 x10 x11).
Proof.
  intros. intros vs t r T H. unfold templatefile_func in T, H. cbn [f_impl f_type] in T, H. unfold bad_args in T, H.
  destruct vs as [|p [|v [|? ?]]]; try discriminate H. destruct (negb _).
  { assert (t = dyn) by congruence. subst t. apply conforms_dyn. }
  crunch2. repeat match goal with A : ?x = Ok ?a, B : ?x = Ok ?b |- _ => assert (a = b) by congruence; subst; clear B end.
  apply conforms_refl.
Qed.

(* With what is known of the arguments. *)
Definition fits_at (f : func) (l : list (param * value)) : Prop :=
  forall t r, f_type f (map seen l) = Ok t -> f_impl f (map seen l) t = Ok r -> conforms (type_of r) t = true.
Definition fits_typed (f : func) : Prop := forall l, Forall (fun pa => typed (snd pa)) l -> check_args l = Ok false ->
  (exists args, pair_args (f_params f) (f_var f) args = Some l) -> fits_at f l.
Lemma own_typed : forall f, fits_own f -> fits_typed f.
Proof. intros f F l _ _ _ t r T H. exact (F _ t r T H). Qed.

Lemma typed_seen : forall pa, typed (snd pa) -> typed (seen pa).
Proof. intros [p v] T. unfold seen. destruct (p_marked _); [exact T|apply typed_unmark; exact T]. Qed.

Definition converts (convert : value -> ty -> result value) : Prop := forall v t r, convert v t = Ok r -> conforms (type_of r) t = true.

Lemma coalesce_func_fits : forall unify convert, converts convert -> fits_own (coalesce_func unify convert).
Proof.
  intros unify convert C vs t r _ H. cbn [f_impl coalesce_func] in H. revert r H. induction vs as [|v vs IH]; cbn [coalesce]; intros r H; [discriminate|].
  destruct (convert v t) as [w|?|?] eqn:E; [|discriminate..]. destruct (is_known w); cbn [negb] in H.
  2:{ apply ok_inj in H. subst. apply conforms_refl. }
  destruct (is_null w); [exact (IH r H)|]. destruct (shape_of w); try match goal with x : string |- _ => destruct x end; try destruct (ty_eqb t str);
    first [exact (IH r H)|apply ok_inj in H; subst; exact (C _ _ _ E)].
Qed.
Lemma to_func_fits : forall convert quoted friendly can_convert want, converts convert -> fits_own (to_func convert quoted friendly can_convert want).
Proof.
  intros convert quoted friendly can_convert want C vs t r _ H. cbn [f_impl to_func] in H. unfold bad_args in H.
  destruct vs as [|v [|? ?]]; try discriminate. destruct (convert v t) as [w|?|?] eqn:E.
  - apply ok_inj in H. subst. exact (C _ _ _ E).
  - repeat match type of H with context [if ?b then _ else _] => destruct b end; discriminate.
  - discriminate.
Qed.
Lemma type_func_fits : forall type_type capsule, (forall t, type_of (plain (capsule t)) = type_type) -> fits_own (type_func type_type capsule).
Proof.
  intros type_type capsule C vs t r T H. cbn [f_impl f_type type_func] in T, H. apply ok_inj in T. subst t. unfold bad_args in H.
  destruct vs as [|v [|? ?]]; try discriminate. apply ok_inj in H. subst r. rewrite type_with, C. apply conforms_refl.
Qed.
Lemma one_func_fits : fits_typed one_func.
Proof.
  intros l Ty _ (args & P) t r T H. cbn [f_params f_var one_func] in P.
  destruct args as [|a [|? ?]]; try discriminate P. cbn in P. assert (l = [(any_param, a)]) by congruence. subst l. inversion Ty; subst.
  apply (one_of_type (seen (any_param, a)) t r); [apply typed_seen; assumption|exact T|exact H].
Qed.
Lemma matchkeys_func_fits : forall sn unify convert, fits_typed (matchkeys_func sn unify convert).
Proof.
  intros sn unify convert l Ty C (args & P) t r T H. cbn [f_params f_var matchkeys_func] in P.
  destruct args as [|a [|b [|c [|? ?]]]]; try discriminate P. cbn in P. injection P as <-.
  cbn [check_args] in C. cbn [f_type f_impl matchkeys_func map] in T, H. set (v := seen (plain_param (list_of dyn), a)) in *.
  assert (Tv : type_of v = type_of a) by apply type_unmark_deep.
  destruct (unify _); [|discriminate T]. apply ok_inj in T. subst t.
  assert (L : exists u, type_of a = list_of u).
  { destruct (is_null a && _); [discriminate C|]. destruct (kind_eqb _ _); [discriminate C|].
    destruct (conforms (type_of a) (p_type (plain_param (list_of dyn)))) eqn:K; [|discriminate C].
    destruct (type_of a) as [k al]. cbn [conforms p_type plain_param list_of dyn kind_eqb orb] in K. apply andb_true_iff in K. destruct K as [K1 K2].
    destruct k; try discriminate K1. destruct al as [|[n u] [|[? ?] ?]]; try discriminate K2.
    - apply andb_true_iff in K2. destruct K2 as [K2 _]. apply andb_true_iff in K2. destruct K2 as [K2 _]. apply String.eqb_eq in K2. subst n. exists u. reflexivity.
    - apply andb_true_iff in K2. destruct K2 as [_ K2]. discriminate K2. }
  destruct L as (u & L). rewrite Tv, L in H |- *. cbn [element_type list_of ty_args] in H.
  crunch2. all: try apply conforms_refl.
Qed.
Lemma lookup_types : forall (k : string) (l : list (string * value)), lookup k ((fix go l := match l with [] => [] | (k, x) :: l => (k, type_of x) :: go l end) l)
  = option_map type_of (lookup k l).
Proof. induction l as [|[k' v] l IH]; [reflexivity|]. cbn. destruct (eq_dec _ _); [reflexivity|exact IH]. Qed.
Lemma lookup_func_fits : forall convert quoted, converts convert -> fits_typed (lookup_func convert quoted).
Proof.
  intros convert quoted C l Ty _ (args & P) t r T H. cbn [f_params f_var lookup_func] in P. cbn [f_type f_impl lookup_func] in T, H.
  assert (Tl : Forall typed (map seen l)).
  { clear -Ty. induction Ty; cbn [map]; constructor; [apply typed_seen; assumption|assumption]. }
  destruct (map seen l) as [|m [|k rest]]; [discriminate H..|]. unfold lookup_type in T. unfold lookup_impl in H.
  destruct (Nat.ltb _ _) eqn:N; [discriminate T|]. apply bindr_Ok in H. destruct H as (key & K & H).
  assert (Sk : shape_of k = SStr key).
  { destruct k as [km ks kl]. cbn in K |- *. destruct ks; try discriminate. congruence. }
  inversion Tl as [|? ? Tm _]; subst. rewrite Sk in T.
  destruct Tm as [ms t0 p|ms t0|ms s|ms n|ms b|ms t0 el Hl|ms t0 el Hl|ms t0 el _ Hl|ms el Hl|ms el _ Hl]; cbn [shape_of elems] in H; try discriminate H.
  - apply ok_inj in H. subst r. rewrite type_with. apply conforms_refl.
  - cbn [type_of map_of kind_of element_type ty_args] in T.
    assert (t = t0). { destruct rest as [|d ?]; [congruence|]. destruct (convert d t0); congruence. } subst t0.
    destruct (lookup key el) as [v|] eqn:E.
    + apply ok_inj in H. subst r. rewrite type_with. destruct (Hl key v (lookup_In _ _ _ E)) as [_ ->]. apply conforms_refl.
    + destruct rest as [|d [|? ?]]; try discriminate H. apply bindr_Ok in H. destruct H as (v & V & H). apply ok_inj in H. subst r.
      rewrite type_with. exact (C _ _ _ V).
  - cbn [type_of kind_of ty_args] in T. rewrite lookup_types in T.
    destruct (lookup key el) as [v|] eqn:E; cbn [option_map] in T.
    + apply ok_inj in T. apply ok_inj in H. subst. rewrite type_with. apply conforms_refl.
    + destruct rest as [|d [|? ?]]; try discriminate H. apply bindr_Ok in H. destruct H as (v & V & H). apply ok_inj in H. subst r.
      rewrite type_with. exact (C _ _ _ V).
Qed.
Lemma pair_typed : forall ps var args l, pair_args ps var args = Some l -> Forall typed args -> Forall (fun pa : param * value => typed (snd pa)) l.
Proof.
  intros ps var args. revert ps. induction args as [|a args IH]; intros [|p ps] l P Ty; cbn [pair_args] in P; try discriminate.
  - injection P as <-. constructor.
  - destruct var as [p|] eqn:V; [|discriminate]. rewrite <- V in *. destruct (pair_args [] var args) as [l'|] eqn:Q; [|discriminate]. injection P as <-.
    inversion Ty; subst. constructor; [assumption|exact (IH _ _ Q ltac:(assumption))].
  - destruct (pair_args ps var args) as [l'|] eqn:Q; [|discriminate]. injection P as <-. inversion Ty; subst.
    constructor; [assumption|exact (IH _ _ Q ltac:(assumption))].
Qed.
Create HintDb fits.
#[local] Hint Resolve own_typed abspath_func_fits base64decode_func_fits base64encode_func_fits base64gzip_func_fits hash_func_fits basename_func_fits dirname_func_fits pathexpand_func_fits bcrypt_func_fits rsadecrypt_func_fits uuid_func_fits uuidv5_func_fits sum_func_fits transpose_func_fits file_func_fits file_hash_func_fits fileexists_func_fits fileset_func_fits signum_func_fits parseint_func_fits startswith_func_fits endswith_func_fits strcontains_func_fits replace_func_fits textencodebase64_func_fits textdecodebase64_func_fits urlencode_func_fits timeadd_func_fits timecmp_func_fits timestamp_func_fits static_timestamp_func_fits cidrhost_func_fits cidrnetmask_func_fits cidrsubnet_func_fits cidrsubnets_func_fits list_func_fits map_func_fits length_func_fits log_func_fits pow_func_fits alltrue_func_fits anytrue_func_fits index_func_fits sensitive_func_fits nonsensitive_func_fits templatefile_func_fits coalesce_func_fits to_func_fits type_func_fits one_func_fits matchkeys_func_fits lookup_func_fits : fits.

Section Functions.
Variables nfc quoted : string -> string.
Variable encoding : Type.
Variable iana : string -> option encoding.
Variable iana_name : encoding -> option string.
Variables encoder decoder : encoding -> string -> option string.
Variables gzip h enc sha1 : string -> string.
Variable itoa : Z -> string.
Variable blowfish : string -> Z -> string.
Variable key : Type.
Variable parse_key : string -> result (option key).
Variable decrypt : key -> string -> result string.
Variable random : result string.
Variables cwd base : string.
Variable home : result string.
Variable open_path : string -> opened.
Variable stat_path : string -> stat.
Variable stat_error : string -> string.
Variable glob : string -> result (list string).
Variable same_number : number -> number -> bool.
Variable unify : list ty -> option ty.
Variable convert : value -> ty -> result value.
Variable can_convert : ty -> ty -> bool.
Variable friendly : ty -> string.
Variable graphemes : string -> Z.
Variable replace_regexp : string -> string -> string -> result string.
Variable local : Z -> Z.
Variable float_part : Z -> Z -> nat -> Z.
Variable now : Z.
Variable static_time : gotime.
Variable mlog : float -> float.
Variable mpow : float -> float -> float.
Variable quotient : dyadic -> dyadic -> float.
Variable early : list (param * value) -> list mark.
Variable expr : Type.
Variable parse_template : string -> string -> result expr.
Variable references : expr -> list string.
Variable evaluate : expr -> list (string * value) -> list (string * func) -> result value.
Variable valid_identifier : string -> bool.
Variable given : list (string * func).
Variable type_type : ty.
Variable capsule : ty -> shape.


(* Conversions give the type that was asked for, and the values that type gives are of its type. *)
Hypothesis C : forall v t r, convert v t = Ok r -> conforms (type_of r) t = true.
Hypothesis D : forall t, type_of (plain (capsule t)) = type_type.

Lemma all_fit : forall n f, In (n, f) (functions nfc quoted encoding iana iana_name encoder decoder gzip h enc sha1 itoa blowfish key parse_key decrypt random cwd base home open_path stat_path stat_error glob same_number unify convert can_convert friendly graphemes replace_regexp local float_part now static_time mlog mpow quotient early expr parse_template references evaluate valid_identifier given type_type capsule) -> fits_typed f.
Proof.
  intros n f I. pose proof (C : converts convert) as C'. unfold functions in I. cbn [In] in I.
  repeat (destruct I as [I|I]; [injection I as <- <-; solve [auto with fits]|]).
  contradiction.
Qed.

(* A result is of the type announced for the arguments. *)
Theorem C97_type : forall n f, In (n, f) (functions nfc quoted encoding iana iana_name encoder decoder gzip h enc sha1 itoa blowfish key parse_key decrypt random cwd base home open_path stat_path stat_error glob same_number unify convert can_convert friendly graphemes replace_regexp local float_part now static_time mlog mpow quotient early expr parse_template references evaluate valid_identifier given type_type capsule) ->
  forall e args r, Forall typed args -> call e f args = Ok r ->
  exists t, return_type f args = Ok t /\ instance_of (type_of r) t.
Proof.
  intros n f I e args r Ty H. unfold call in H. unfold return_type. destruct (pair_args (f_params f) (f_var f) args) as [l|] eqn:P; [|discriminate].
  destruct (check_args l) as [stop|?|?] eqn:K; [|discriminate..]. cbn [bindr] in *. destruct stop.
  { exists dyn. split; [reflexivity|]. constructor. }
  apply bindr_Ok in H. destruct H as (t & T & H). exists t. split; [exact T|].
  destruct (existsb unknown_arg l).
  { apply ok_inj in H. subst r. rewrite type_with. apply conforms_instance, conforms_refl. }
  apply bindr_Ok in H. destruct H as (v & V & H). apply ok_inj in H. subst r. rewrite type_with. apply conforms_instance.
  apply (all_fit n f I l); [exact (pair_typed _ _ _ _ P Ty)|exact K|eauto| |].
  - destruct (f_type f (map seen l)); [exact T|discriminate..].
  - destruct (f_impl f (map seen l) t); [exact V|discriminate..].
Qed.

(* So the check after the code of a function changes no call. *)
Theorem C97_checked : forall n f, In (n, f) (functions nfc quoted encoding iana iana_name encoder decoder gzip h enc sha1 itoa blowfish key parse_key decrypt random cwd base home open_path stat_path stat_error glob same_number unify convert can_convert friendly graphemes replace_regexp local float_part now static_time mlog mpow quotient early expr parse_template references evaluate valid_identifier given type_type capsule) ->
  forall e args, Forall typed args -> call_checked e f args = call e f args.
Proof.
  intros n f I e args Ty. unfold call, call_checked. destruct (pair_args (f_params f) (f_var f) args) as [l|] eqn:P; [|reflexivity].
  destruct (check_args l) as [[]|?|?] eqn:K; cbn [bindr]; [reflexivity| |reflexivity..].
  destruct (f_type f (map seen l)) as [t|?|?] eqn:T; cbn [no_panic bindr]; [|reflexivity..].
  destruct (existsb unknown_arg l); [reflexivity|]. destruct (f_impl f (map seen l) t) as [r|?|?] eqn:R; [|reflexivity..]. cbn [bindr].
  rewrite (all_fit n f I l (pair_typed _ _ _ _ P Ty) K (ex_intro _ args P) t r T R). reflexivity.
Qed.

(* Arguments that are refused when the type is asked for are refused when the function is called, and for the same reason. *)
Theorem C97_refused : forall (f : func) e args m, return_type f args = Err m -> call e f args = Err m.
Proof.
  intros f e args m. unfold call, return_type. destruct (pair_args _ _ _) as [l|]; [|congruence].
  destruct (check_args l) as [[]|?|?]; cbn [bindr]; [discriminate| |congruence|discriminate].
  destruct (f_type f (map seen l)); cbn [no_panic bindr]; congruence.
Qed.
(* Too few arguments, and too many unless there may be more, have no type. *)
Theorem C97_count : forall (f : func) args,
  List.length args < List.length (f_params f) \/ (f_var f = None /\ List.length (f_params f) < List.length args) ->
  exists m, return_type f args = Err m.
Proof.
  intros f args H. unfold return_type. assert (P : pair_args (f_params f) (f_var f) args = None); [|rewrite P; eauto].
  revert args H. generalize (f_params f) as ps. induction ps as [|p ps IH]; intros args H.
  - destruct H as [H|[-> H]]; [destruct args; cbn in H; lia|]. destruct args as [|a args]; [cbn in H; lia|reflexivity].
  - destruct args as [|a args]; [reflexivity|]. cbn [pair_args]. rewrite IH; [reflexivity|]. cbn in H. destruct H as [H|[V H]]; [left; lia|right; split; [exact V|lia]].
Qed.
End Functions.
Print Assumptions C97_type.
Print Assumptions C97_checked.
Print Assumptions C97_count.
Print Assumptions C97_refused.

(* An object has a number under "a" and a text under "b": the type of what is looked up is known before the call. *)
Definition ab : value := Val [] SObj [("a", num_val (int_val 1)); ("b", str_val "x")].
Definition keep (v : value) (t : ty) : result value := if conforms (type_of v) t then Ok v else Err "mismatch".
Example C97_sample : forall quoted e,
  (forall v t r, keep v t = Ok r -> conforms (type_of r) t = true) /\ Forall typed [ab; str_val "a"] /\
  return_type (lookup_func keep quoted) [ab; str_val "a"] = Ok numt /\
  call e (lookup_func keep quoted) [ab; str_val "a"] = Ok (num_val (int_val 1)) /\
  return_type (lookup_func keep quoted) [ab; str_val "c"; plain (SBool true)] = Ok boolt /\
  return_type (lookup_func keep quoted) [ab; plain (SUnknown str "")] = Ok dyn /\
  return_type (coalesce_func (fun _ => None) keep) [ab; str_val "a"] = Err "all arguments must have the same type" /\
  call_checked e (mkFunc [] None (static str) (fun _ _ => Ok ab)) [] = Err "panic: returned value does not conform to expected return type" /\
  instance_of (list_of (list_of str)) (list_of dyn) /\ ~ instance_of (list_of str) (list_of numt).
Proof.
  intros quoted e. split.
  { unfold keep. intros v t r H. destruct (conforms (type_of v) t) eqn:K; [congruence|discriminate]. }
  split.
  { repeat constructor; try (cbn; intuition discriminate). intros k v [H|[H|[]]]; injection H as <- <-; constructor. }
  repeat (split; [reflexivity|]). split.
  - constructor. constructor; [|constructor]. split; [reflexivity|constructor].
  - intro H. inversion H as [|? ? ? F]; subst. inversion F as [|? ? ? ? [_ G]]; subst. inversion G.
Qed.
