(* Property theorems for results refined as not null: C96. *)
From Coq Require Import List String Bool Arith ZArith Lia.
From Verif Require Import Base CtyModel FuncModel FuncProofs EncModel PathModel FilesetModel TimeModel CryptoModel TemplateModel CastModel NumberModel TypeModel CidrFuncModel RefineModel PropsTable PropsDesc.
Import ListNotations.
Local Open Scope string_scope.

(* ----- the specification ----- *)
Definition null (v : value) : Prop := exists ms t l, v = Val ms (SNull t) l.

(* ----- proofs ----- *)
(* The code of a function never gives null. *)
Definition gives (f : func) : Prop := forall vs t r, f_impl f vs t = Ok r -> is_null r = false.
Lemma is_null_spec : forall v, is_null v = true <-> null v.
Proof.
  intros [ms s l]. unfold null, is_null. cbn. split.
  - destruct s; try discriminate. intros _. eauto.
  - intros (ms' & t & l' & E). injection E as -> -> ->. reflexivity.
Qed.
Lemma marks_null : forall ms v, is_null (with_marks ms v) = is_null v.
Proof. intros ms [ms' s l]. reflexivity. Qed.
Lemma call_gives : forall f, gives f -> forall e args r, call e f args = Ok r -> is_null r = false.
Proof.
  intros f G e args r H. unfold call in H. destruct (pair_args _ _ _) as [l|]; [|discriminate].
  apply bindr_Ok in H. destruct H as (stop & _ & H). destruct stop.
  { assert (r = with_marks (e l) (unknown dyn)) by congruence. subst r. rewrite marks_null. reflexivity. }
  apply bindr_Ok in H. destruct H as (t & _ & H). destruct (existsb unknown_arg l).
  { assert (r = with_marks (e l) (unknown t)) by congruence. subst r. rewrite marks_null. reflexivity. }
  apply bindr_Ok in H. destruct H as (v & Q & H). assert (r = with_marks (flat_map taken_marks l) v) by congruence. subst r.
  rewrite marks_null. apply (G (map seen l) t). destruct (f_impl f (map seen l) t); [exact Q|discriminate..].
Qed.

Lemma call_no_panic : forall e f args p, call e f args <> Panic p.
Proof.
  intros e f args p. unfold call. destruct (pair_args _ _ _) as [l|]; [|discriminate].
  assert (K : forall l q, check_args l <> Panic q).
  { clear. induction l as [|[a v] l IH]; intro q; cbn [check_args]; [discriminate|].
    repeat match goal with |- context [if ?b then _ else _] => destruct b end; first [discriminate|apply IH]. }
  destruct (check_args l) as [[]|?|q] eqn:C; cbn [bindr]; [discriminate| |discriminate|destruct (K l q C)].
  destruct (f_type f (map seen l)); cbn [no_panic bindr]; [|discriminate..]. destruct (existsb _ _); [discriminate|].
  destruct (f_impl f _ _); discriminate.
Qed.
Lemma ok_inj : forall (a b : value), Ok a = Ok b -> a = b.
Proof. congruence. Qed.
Ltac crunch := repeat match goal with
  | H : bindr _ _ = Ok _ |- _ => apply bindr_Ok in H; let Q := fresh "Q" in destruct H as (? & Q & H)
  | H : Ok _ = Ok _ |- _ => apply ok_inj in H; subst
  | H : (match ?x with _ => _ end) = Ok _ |- _ => destruct x; try discriminate H
  | H : Err _ = Ok _ |- _ => discriminate H
  | H : Panic _ = Ok _ |- _ => discriminate H
  end; rewrite ?marks_null; try reflexivity.

Ltac open H := match type of H with f_impl ?f _ _ = _ => let rec hd g := match g with ?g' _ => hd g' | _ => unfold g in H end in hd f end;
  unfold on_string, two_strings in H; cbn [f_impl] in H; unfold bad_args in H.
Ltac easy_gives := intros; intros vs t r H; open H; crunch.
Create HintDb gives.
Lemma abspath_func_gives : forall x0 x1, gives (abspath_func x0 x1).
Proof. easy_gives. Qed.
Lemma base64decode_func_gives : forall x0 x1, gives (base64decode_func x0 x1).
Proof. easy_gives. Qed.
Lemma base64encode_func_gives : forall x0, gives (base64encode_func x0).
Proof. easy_gives. Qed.
Lemma base64gzip_func_gives : forall x0 x1, gives (base64gzip_func x0 x1).
Proof. easy_gives. Qed.
Lemma hash_func_gives : forall x0 x1 x2, gives (hash_func x0 x1 x2).
Proof. easy_gives. Qed.
Lemma basename_func_gives : forall x0, gives (basename_func x0).
Proof. easy_gives. Qed.
Lemma dirname_func_gives : forall x0, gives (dirname_func x0).
Proof. easy_gives. Qed.
Lemma pathexpand_func_gives : forall x0 x1, gives (pathexpand_func x0 x1).
Proof. easy_gives. Qed.
Lemma bcrypt_func_gives : forall x0 x1 x2, gives (bcrypt_func x0 x1 x2).
Proof. easy_gives. Qed.
Lemma rsadecrypt_func_gives : forall x0 x1 x2 x3 x4, gives (rsadecrypt_func x0 x1 x2 x3 x4).
Proof. easy_gives. Qed.
Lemma uuid_func_gives : forall x0 x1, gives (uuid_func x0 x1).
Proof. easy_gives. Qed.
Lemma uuidv5_func_gives : forall x0 x1 x2 x3, gives (uuidv5_func x0 x1 x2 x3).
Proof. easy_gives. Qed.
Lemma length_func_gives : forall x0, gives (length_func x0).
Proof. easy_gives. all: unfold length_val; repeat match goal with |- context [match ?x with _ => _ end] => destruct x end; rewrite ?marks_null; reflexivity. Qed.
Lemma sum_func_gives : forall x0, gives (sum_func x0).
Proof. easy_gives. Qed.
Lemma transpose_func_gives : gives (transpose_func).
Proof. easy_gives. Qed.
Lemma file_func_gives : forall x0 x1 x2 x3 x4 x5, gives (file_func x0 x1 x2 x3 x4 x5).
Proof. easy_gives. Qed.
Lemma file_hash_func_gives : forall x0 x1 x2 x3 x4 x5, gives (file_hash_func x0 x1 x2 x3 x4 x5).
Proof. easy_gives. Qed.
Lemma fileexists_func_gives : forall x0 x1 x2 x3, gives (fileexists_func x0 x1 x2 x3).
Proof. easy_gives. Qed.
Lemma fileset_func_gives : forall x0 x1 x2 x3 x4 x5, gives (fileset_func x0 x1 x2 x3 x4 x5).
Proof. easy_gives. Qed.
Lemma log_func_gives : forall x0 x1, gives (log_func x0 x1).
Proof. easy_gives. all: unfold float_val in *; crunch. Qed.
Lemma pow_func_gives : forall x0, gives (pow_func x0).
Proof. easy_gives. all: unfold float_val in *; crunch. Qed.
Lemma signum_func_gives : gives (signum_func).
Proof. easy_gives. Qed.
Lemma parseint_func_gives : forall x0 x1 x2, gives (parseint_func x0 x1 x2).
Proof. easy_gives. Qed.
Lemma startswith_func_gives : gives (startswith_func).
Proof. easy_gives. Qed.
Lemma endswith_func_gives : gives (endswith_func).
Proof. easy_gives. Qed.
Lemma replace_func_gives : forall x0, gives (replace_func x0).
Proof. easy_gives. Qed.
Lemma textencodebase64_func_gives : forall x0 x1 x2 x3 x4 x5, gives (textencodebase64_func x0 x1 x2 x3 x4 x5).
Proof. easy_gives. Qed.
Lemma textdecodebase64_func_gives : forall x0 x1 x2 x3 x4 x5, gives (textdecodebase64_func x0 x1 x2 x3 x4 x5).
Proof. easy_gives. Qed.
Lemma urlencode_func_gives : forall x0, gives (urlencode_func x0).
Proof. easy_gives. Qed.
Lemma timeadd_func_gives : forall x0 x1 x2, gives (timeadd_func x0 x1 x2).
Proof. easy_gives. Qed.
Lemma timecmp_func_gives : forall x0 x1, gives (timecmp_func x0 x1).
Proof. easy_gives. Qed.
Lemma timestamp_func_gives : forall x0 x1, gives (timestamp_func x0 x1).
Proof. easy_gives. Qed.
Lemma cidrhost_func_gives : gives (cidrhost_func).
Proof. easy_gives. Qed.
Lemma cidrnetmask_func_gives : gives (cidrnetmask_func).
Proof. easy_gives. Qed.
Lemma cidrsubnet_func_gives : gives (cidrsubnet_func).
Proof. easy_gives. Qed.
Lemma cidrsubnets_func_gives : gives (cidrsubnets_func).
Proof. easy_gives. Qed.

Lemma all_true_gives : forall l r, all_true l = Ok r -> is_null r = false.
Proof. induction l as [|[k v] l IH]; cbn [all_true]; intros r H; [crunch|]. destruct (shape_of v) eqn:S; try match goal with b : bool |- _ => destruct b end; crunch; auto. Qed.
Lemma alltrue_func_gives : gives alltrue_func.
Proof. easy_gives. eapply all_true_gives; eassumption. Qed.
Lemma any_true_gives : forall l b r, any_true b l = Ok r -> is_null r = false.
Proof. induction l as [|[k v] l IH]; cbn [any_true]; intros b r H; [destruct b; crunch|]. destruct (shape_of v) eqn:S; try match goal with c : bool, Q : _ = SBool ?c |- _ => destruct c end; crunch; eauto. Qed.
Lemma anytrue_func_gives : gives anytrue_func.
Proof. easy_gives. eapply any_true_gives; eassumption. Qed.
Lemma coalesce_func_gives : forall unify convert, gives (coalesce_func unify convert).
Proof.
  intros unify convert vs t r H. cbn [f_impl coalesce_func] in H. revert r H. induction vs as [|v vs IH]; cbn [coalesce]; intros r H; [discriminate|].
  destruct (convert v t) as [w|?|?]; [|discriminate..]. destruct (is_known w); cbn [negb] in H; [|crunch].
  destruct (is_null w) eqn:N; [exact (IH r H)|]. destruct (shape_of w); try match goal with x : string |- _ => destruct x end; try destruct (ty_eqb t str);
    first [exact (IH r H)|apply ok_inj in H; subst; exact N].
Qed.
Lemma index_from_gives : forall sn w l i r, index_from sn i l w = Ok r -> is_null r = false.
Proof.
  induction l as [|[k v] l IH]; cbn [index_from]; intros i r H; [discriminate|]. destruct (equals _ _ _) as [[]|]; crunch. exact (IH _ _ H).
Qed.
Lemma index_func_gives : forall sn, gives (index_func sn).
Proof. easy_gives. all: eapply index_from_gives; eassumption. Qed.
Lemma matchkeys_func_gives : forall same_number unify convert, gives (matchkeys_func same_number unify convert).
Proof. easy_gives. Qed.
#[local] Hint Resolve coalesce_func_gives index_func_gives matchkeys_func_gives abspath_func_gives base64decode_func_gives base64encode_func_gives base64gzip_func_gives hash_func_gives basename_func_gives dirname_func_gives pathexpand_func_gives bcrypt_func_gives rsadecrypt_func_gives uuid_func_gives uuidv5_func_gives length_func_gives sum_func_gives transpose_func_gives file_func_gives file_hash_func_gives fileexists_func_gives fileset_func_gives log_func_gives pow_func_gives signum_func_gives parseint_func_gives startswith_func_gives endswith_func_gives replace_func_gives textencodebase64_func_gives textdecodebase64_func_gives urlencode_func_gives timeadd_func_gives timecmp_func_gives timestamp_func_gives cidrhost_func_gives cidrnetmask_func_gives cidrsubnet_func_gives cidrsubnets_func_gives alltrue_func_gives anytrue_func_gives : gives.
Section Functions.
Variables nfc quoted : string -> string.
Variable encoding : Type.
Variable iana : string -> option encoding.
Variable iana_name : encoding -> option string.
Variables encoder decoder : encoding -> string -> option string.
Variables gzip h enc sha1 : string -> string.
Variable itoa : Z -> string.
Variable blowfish : string -> Z -> string.
Variable key : Type.
Variable parse_key : string -> result (option key).
Variable decrypt : key -> string -> result string.
Variable random : result string.
Variables cwd base : string.
Variable home : result string.
Variable open_path : string -> opened.
Variable stat_path : string -> stat.
Variable stat_error : string -> string.
Variable glob : string -> result (list string).
Variable same_number : number -> number -> bool.
Variable unify : list ty -> option ty.
Variable convert : value -> ty -> result value.
Variable can_convert : ty -> ty -> bool.
Variable friendly : ty -> string.
Variable graphemes : string -> Z.
Variable replace_regexp : string -> string -> string -> result string.
Variable local : Z -> Z.
Variable float_part : Z -> Z -> nat -> Z.
Variable now : Z.
Variable static_time : gotime.
Variable mlog : float -> float.
Variable mpow : float -> float -> float.
Variable quotient : dyadic -> dyadic -> float.
Variable early : list (param * value) -> list mark.
Variable expr : Type.
Variable parse_template : string -> string -> result expr.
Variable references : expr -> list string.
Variable evaluate : expr -> list (string * value) -> list (string * func) -> result value.
Variable valid_identifier : string -> bool.
Variable given : list (string * func).
Variable type_type : ty.
Variable capsule : ty -> shape.


Lemma refined_gives : forall n f, In (n, f) (functions nfc quoted encoding iana iana_name encoder decoder gzip h enc sha1 itoa blowfish key parse_key decrypt random cwd base home open_path stat_path stat_error glob same_number unify convert can_convert friendly graphemes replace_regexp local float_part now static_time mlog mpow quotient early expr parse_template references evaluate valid_identifier given type_type capsule) ->
  In n refined -> gives f.
Proof.
  intros n f I R. assert (B : existsb (String.eqb n) refined = true).
  { apply existsb_exists. exists n. split; [exact R|apply String.eqb_refl]. }
  clear R. unfold functions in I. cbn [In] in I.
  repeat (destruct I as [I|I]; [injection I as <- <-; first [exfalso; clear -B; vm_compute in B; discriminate B|clear B; auto with gives] |]).
  contradiction.
Qed.

(* A function whose result is refined never gives null, whatever its arguments are. *)
Theorem C96_never_null : forall n f, In (n, f) (functions nfc quoted encoding iana iana_name encoder decoder gzip h enc sha1 itoa blowfish key parse_key decrypt random cwd base home open_path stat_path stat_error glob same_number unify convert can_convert friendly graphemes replace_regexp local float_part now static_time mlog mpow quotient early expr parse_template references evaluate valid_identifier given type_type capsule) -> In n refined ->
  forall e args r, call e f args = Ok r -> ~ null r.
Proof.
  intros n f I R e args r H N. apply is_null_spec in N. rewrite (call_gives f (refined_gives n f I R) e args r H) in N. discriminate.
Qed.

(* So the refinement changes no call, and no call of any function of the package panics. *)
Theorem C96_no_panic : forall n f, In (n, f) (functions nfc quoted encoding iana iana_name encoder decoder gzip h enc sha1 itoa blowfish key parse_key decrypt random cwd base home open_path stat_path stat_error glob same_number unify convert can_convert friendly graphemes replace_regexp local float_part now static_time mlog mpow quotient early expr parse_template references evaluate valid_identifier given type_type capsule) ->
  forall e args, call_refined e n f args = call e f args /\ forall p, call_refined e n f args <> Panic p.
Proof.
  intros n f I e args. assert (A : call_refined e n f args = call e f args).
  { unfold call_refined. destruct (call e f args) as [r|?|?] eqn:C; [|reflexivity..]. cbn [bindr].
    destruct (existsb (String.eqb n) refined) eqn:R; [|reflexivity]. apply existsb_exists in R. destruct R as (m & R & Q).
    apply String.eqb_eq in Q. subst m. cbn [andb]. destruct (_ || _); [|reflexivity].
    unfold refine_not_null. rewrite (call_gives f (refined_gives n f I R) e args r C). reflexivity. }
  split; [exact A|]. intros p. rewrite A. apply call_no_panic.
Qed.

(* The functions that are not refined are these. *)
Theorem C96_others : NoDup refined /\ forall n, (exists f, In (n, f) (functions nfc quoted encoding iana iana_name encoder decoder gzip h enc sha1 itoa blowfish key parse_key decrypt random cwd base home open_path stat_path stat_error glob same_number unify convert can_convert friendly graphemes replace_regexp local float_part now static_time mlog mpow quotient early expr parse_template references evaluate valid_identifier given type_type capsule)) <-> In n refined \/
  In n ["lookup"; "one"; "list"; "map"; "strcontains"; "sensitive"; "nonsensitive"; "templatefile"; "plantimestamp"; "type";
        "tobool"; "tonumber"; "tostring"; "tolist"; "tomap"; "toset"].
Proof.
  split; [apply distinct_ok; vm_compute; reflexivity|].
  assert (D : forall l l', forallb (fun n => existsb (String.eqb n) l') l = true -> forall n : string, In n l -> In n l').
  { intros l l' H n I. rewrite forallb_forall in H. apply H in I. apply in_dec_true in I. exact I. }
  intro n. rewrite <- in_app_iff. assert (K : (exists f, In (n, f) (functions nfc quoted encoding iana iana_name encoder decoder gzip h enc sha1 itoa blowfish key parse_key decrypt random cwd base home open_path stat_path stat_error glob same_number unify convert can_convert friendly graphemes replace_regexp local float_part now static_time mlog mpow quotient early expr parse_template references evaluate valid_identifier given type_type capsule)) <-> In n (keys (functions nfc quoted encoding iana iana_name encoder decoder gzip h enc sha1 itoa blowfish key parse_key decrypt random cwd base home open_path stat_path stat_error glob same_number unify convert can_convert friendly graphemes replace_regexp local float_part now static_time mlog mpow quotient early expr parse_template references evaluate valid_identifier given type_type capsule))).
  { unfold keys. rewrite in_map_iff. split; [intros (f & I); exists (n, f); auto|intros ([n' f] & <- & I); exists f; exact I]. }
  rewrite K. split; apply D; unfold functions; cbn [keys map fst]; vm_compute; reflexivity.
Qed.
End Functions.
Print Assumptions C96_never_null.
Print Assumptions C96_no_panic.
Print Assumptions C96_others.

(* The functions that are not refined do give null: an empty list has no element, null stays null. *)
Example C96_sample : forall convert e,
  null (plain (SNull str)) /\
  call e one_func [list_val str []] = Ok (plain (SNull str)) /\ call e sensitive_func [plain (SNull str)] = Ok (Val [sensitive_mark] (SNull str) []) /\
  call_refined e "one" one_func [list_val str []] = Ok (plain (SNull str)) /\
  call_refined e "length" one_func [list_val str []] = Panic "refining null value as non-null" /\
  call_refined e "coalesce" (coalesce_func (fun _ => Some str) (fun v _ => Ok v)) [plain (SNull str); str_val ""; str_val "x"; str_val "y"] = Ok (str_val "x") /\
  call_refined e "coalesce" (coalesce_func (fun _ => Some str) convert) [] = Err "no non-null, non-empty-string arguments".
Proof. intros. split; [do 3 eexists; reflexivity|]. repeat (split; [reflexivity|]). reflexivity. Qed.
