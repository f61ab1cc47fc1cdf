(* Property theorems for the descriptions of functions: C93. *)
From Coq Require Import List String Bool Arith ZArith Lia.
From Verif Require Import Base CtyModel FuncModel EncModel PathModel FilesetModel TimeModel CryptoModel TemplateModel CastModel NumberModel TableModel PropsTable DescModel TypeModel CidrFuncModel.
Import ListNotations.
Local Open Scope string_scope.
Local Open Scope nat_scope.

Section Functions.
Variables nfc quoted : string -> string.
Variable encoding : Type.
Variable iana : string -> option encoding.
Variable iana_name : encoding -> option string.
Variables encoder decoder : encoding -> string -> option string.
Variables gzip h enc sha1 : string -> string.
Variable itoa : Z -> string.
Variable blowfish : string -> Z -> string.
Variable key : Type.
Variable parse_key : string -> result (option key).
Variable decrypt : key -> string -> result string.
Variable random : result string.
Variables cwd base : string.
Variable home : result string.
Variable open_path : string -> opened.
Variable stat_path : string -> stat.
Variable stat_error : string -> string.
Variable glob : string -> result (list string).
Variable same_number : number -> number -> bool.
Variable unify : list ty -> option ty.
Variable convert : value -> ty -> result value.
Variable can_convert : ty -> ty -> bool.
Variable friendly : ty -> string.
Variable graphemes : string -> Z.
Variable replace_regexp : string -> string -> string -> result string.
Variable local : Z -> Z.
Variable float_part : Z -> Z -> nat -> Z.
Variable now : Z.
Variable static_time : gotime.
Variable mlog : float -> float.
Variable mpow : float -> float -> float.
Variable quotient : dyadic -> dyadic -> float.
Variable early : list (param * value) -> list mark.
Variable expr : Type.
Variable parse_template : string -> string -> result expr.
Variable references : expr -> list string.
Variable evaluate : expr -> list (string * value) -> list (string * func) -> result value.
Variable valid_identifier : string -> bool.
Variable given : list (string * func).
Variable type_type : ty.
Variable capsule : ty -> shape.

(* The functions of the package, by the names they are described under. *)
Definition functions : list (string * func) :=
  (let hash := hash_func nfc h enc in
   let file_hash := file_hash_func nfc home open_path base h enc in
   let to := to_func convert quoted friendly can_convert in
   [("abspath", abspath_func nfc cwd); ("alltrue", alltrue_func); ("anytrue", anytrue_func);
    ("base64decode", base64decode_func nfc quoted); ("base64encode", base64encode_func nfc); ("base64gzip", base64gzip_func nfc gzip);
    ("base64sha256", hash); ("base64sha512", hash); ("md5", hash); ("sha1", hash); ("sha256", hash); ("sha512", hash);
    ("basename", basename_func nfc); ("dirname", dirname_func nfc); ("pathexpand", pathexpand_func nfc home);
    ("bcrypt", bcrypt_func nfc itoa blowfish); ("rsadecrypt", rsadecrypt_func nfc quoted key parse_key decrypt);
    ("uuid", uuid_func nfc random); ("uuidv5", uuidv5_func nfc quoted itoa sha1);
    ("coalesce", coalesce_func unify convert); ("index", index_func same_number); ("length", length_func graphemes);
    ("list", list_func); ("map", map_func); ("lookup", lookup_func convert quoted);
    ("matchkeys", matchkeys_func same_number unify convert); ("one", one_func); ("sum", sum_func convert); ("transpose", transpose_func);
    ("file", file_func nfc quoted home open_path base false); ("filebase64", file_func nfc quoted home open_path base true);
    ("filebase64sha256", file_hash); ("filebase64sha512", file_hash); ("filemd5", file_hash); ("filesha1", file_hash);
    ("filesha256", file_hash); ("filesha512", file_hash); ("fileexists", fileexists_func quoted home stat_path base);
    ("fileset", fileset_func nfc quoted glob stat_path stat_error base);
    ("templatefile", templatefile_func nfc quoted home open_path early expr parse_template references evaluate valid_identifier base given);
    ("log", log_func mlog quotient); ("pow", pow_func mpow); ("signum", signum_func); ("parseint", parseint_func quoted friendly itoa);
    ("startswith", startswith_func); ("endswith", endswith_func); ("strcontains", strcontains_func); ("replace", replace_func replace_regexp);
    ("sensitive", sensitive_func); ("nonsensitive", nonsensitive_func);
    ("textencodebase64", textencodebase64_func nfc quoted encoding iana iana_name encoder);
    ("textdecodebase64", textdecodebase64_func nfc quoted encoding iana iana_name decoder); ("urlencode", urlencode_func nfc);
    ("timeadd", timeadd_func local quoted float_part); ("timecmp", timecmp_func local quoted);
    ("timestamp", timestamp_func local now); ("plantimestamp", static_timestamp_func local static_time);
    ("tobool", to boolt); ("tonumber", to numt); ("tostring", to str); ("tolist", to (list_of dyn)); ("tomap", to (map_of dyn));
    ("toset", to (Ty KSet [("", dyn)])); ("type", type_func type_type capsule);
    ("cidrhost", cidrhost_func); ("cidrnetmask", cidrnetmask_func); ("cidrsubnet", cidrsubnet_func); ("cidrsubnets", cidrsubnets_func)])%list.

Lemma pair_number : forall ps vp args, (List.length args < List.length ps \/ (vp = None /\ List.length args <> List.length ps)) -> pair_args ps vp args = None.
Proof.
  induction ps as [|p ps IH]; intros vp [|a args] H; cbn [List.length pair_args] in *; try lia; [|reflexivity|].
  - destruct H as [H|[-> _]]; [lia|reflexivity].
  - rewrite IH; [reflexivity|]. destruct H as [H|[H H']]; [left; lia|right; split; [exact H|lia]].
Qed.

(* Each is described, and can be given its description: there are as many descriptions as it has
   parameters, all further arguments counting as one. *)
Theorem C93_described : forall n f, In (n, f) functions ->
  with_description n f = Ok f /\ exists k, lookup n descriptions = Some k /\ forall e args,
    (f_var f = None -> List.length args <> k -> call e f args = Err "wrong number of arguments") /\
    (f_var f <> None -> k <= S (List.length args) \/ call e f args = Err "wrong number of arguments").
Proof.
  assert (A : forall n f, In (n, f) functions -> lookup n descriptions = Some (described_params f)).
  { unfold functions. cbn [In]. intros n f H. repeat (destruct H as [H|H]; [injection H as <- <-; reflexivity|]). contradiction. }
  intros n f H. apply A in H. split; [unfold with_description; rewrite H; unfold with_new_descriptions; rewrite Nat.eqb_refl; reflexivity|].
  exists (described_params f). split; [exact H|]. intros e args. unfold described_params, call. split.
  - intros V N. rewrite V in *. rewrite Nat.add_0_r in N. rewrite pair_number; [reflexivity|]. right. split; [reflexivity|exact N].
  - intro V. destruct (f_var f) as [p|]; [|congruence]. destruct (le_lt_dec (List.length (f_params f) + 1) (S (List.length args))) as [L|L]; [left; exact L|].
    right. rewrite pair_number; [reflexivity|]. left. lia.
Qed.
End Functions.
Print Assumptions C93_described.

(* The names are distinct, and those of the table and three more. *)
Theorem C93_names : NoDup (keys descriptions) /\
  forall n, In n (keys descriptions) <-> (exists f, lookup n (core_functions ["."]) = Some f) \/ In n ["templatefile"; "plantimestamp"; "type"].
Proof.
  split; [apply distinct_ok; vm_compute; reflexivity|].
  assert (D : forall l l', forallb (fun n => existsb (String.eqb n) l') l = true -> forall n : string, In n l -> In n l').
  { intros l l' H n I. rewrite forallb_forall in H. apply H in I. apply in_dec_true in I. exact I. }
  intro n. split.
  - intro I. assert (J : In n (keys (core_functions ["."]) ++ ["templatefile"; "plantimestamp"; "type"])) by (revert n I; apply D; vm_compute; reflexivity).
    apply in_app_iff in J. destruct J as [J|J]; [left; apply lookup_key; exact J|right; exact J].
  - intro I. assert (J : In n (keys (core_functions ["."]) ++ ["templatefile"; "plantimestamp"; "type"])).
    { apply in_app_iff. destruct I as [[f I]|I]; [left; apply lookup_some_in in I; apply (in_map fst) in I; exact I|right; exact I]. }
    revert n I J. intros n _. revert n. apply D. vm_compute. reflexivity.
Qed.
Print Assumptions C93_names.

(* A name that is not described changes nothing; under a name with another number of parameters
   the call panics, else it gives the function. *)
Theorem C93_total_partial : forall name f,
  (~ In name (keys descriptions) -> with_description name f = Ok f) /\
  (forall g, with_description name f = Ok g -> g = f) /\ (forall e, with_description name f <> Err e).
Proof.
  intros name f. unfold with_description, with_new_descriptions. split; [|split].
  - intro N. destruct (lookup name descriptions) eqn:E; [|reflexivity]. destruct N. apply lookup_In in E. apply (in_map fst) in E. exact E.
  - intros g. destruct (lookup name descriptions); [destruct (_ =? _)|]; congruence.
  - intros e. destruct (lookup name descriptions); [destruct (_ =? _)|]; congruence.
Qed.
Print Assumptions C93_total_partial.
Theorem C93_total_refuted : exists name f m, with_description name f = Panic m.
Proof. exists "replace", one_func. eexists. vm_compute. reflexivity. Qed.
Print Assumptions C93_total_refuted.

Example C93_sample : with_description "one" one_func = Ok one_func /\ with_description "first" one_func = Ok one_func.
Proof. split; reflexivity. Qed.
