(* Property theorems for the table of functions: C89. *)
From Coq Require Import List String Ascii Bool PeanoNat.
From Verif Require Import Base TreeModel TreeProofs TableModel.
Import ListNotations.
Local Open Scope string_scope.

(* ----- the vocabulary ----- *)

(* The functions that are described, funcs/descriptions.go:29-534. *)
Definition documented : list string := [
   "abs"; "abspath"; "alltrue"; "anytrue"; "base64decode"; "base64encode"; "base64gzip"; "base64sha256";
   "base64sha512"; "basename"; "bcrypt"; "can"; "ceil"; "chomp"; "chunklist"; "cidrhost"; "cidrnetmask";
   "cidrsubnet"; "cidrsubnets"; "coalesce"; "coalescelist"; "compact"; "concat"; "contains"; "csvdecode";
   "dirname"; "distinct"; "element"; "endswith"; "file"; "filebase64"; "filebase64sha256"; "filebase64sha512";
   "fileexists"; "filemd5"; "fileset"; "filesha1"; "filesha256"; "filesha512"; "flatten"; "floor"; "format";
   "formatdate"; "formatlist"; "indent"; "index"; "join"; "jsondecode"; "jsonencode"; "keys"; "length"; "list";
   "log"; "lookup"; "lower"; "map"; "matchkeys"; "max"; "md5"; "merge"; "min"; "nonsensitive"; "one";
   "parseint"; "pathexpand"; "pow"; "range"; "regex"; "regexall"; "replace"; "reverse"; "rsadecrypt";
   "sensitive"; "setintersection"; "setproduct"; "setsubtract"; "setunion"; "sha1"; "sha256"; "sha512";
   "signum"; "slice"; "sort"; "split"; "startswith"; "strcontains"; "strrev"; "substr"; "sum"; "templatefile";
   "textdecodebase64"; "textencodebase64"; "timeadd"; "timecmp"; "timestamp"; "plantimestamp"; "title";
   "tobool"; "tolist"; "tomap"; "tonumber"; "toset"; "tostring"; "transpose"; "trim"; "trimprefix"; "trimspace";
   "trimsuffix"; "try"; "type"; "upper"; "urlencode"; "uuid"; "uuidv5"; "values"; "yamldecode"; "yamlencode";
   "zipmap"].
(* The functions of the package that are complete by themselves (its variables of that kind). *)
Definition package_functions : list string := [
   "CidrHostFunc"; "CidrNetmaskFunc"; "CidrSubnetFunc"; "CidrSubnetsFunc"; "LengthFunc"; "AllTrueFunc";
   "AnyTrueFunc"; "CoalesceFunc"; "IndexFunc"; "LookupFunc"; "MatchkeysFunc"; "OneFunc"; "SumFunc";
   "TransposeFunc"; "ListFunc"; "MapFunc"; "TypeFunc"; "UUIDFunc"; "UUIDV5Func"; "Base64Sha256Func";
   "Base64Sha512Func"; "BcryptFunc"; "Md5Func"; "RsaDecryptFunc"; "Sha1Func"; "Sha256Func"; "Sha512Func";
   "TimestampFunc"; "TimeAddFunc"; "TimeCmpFunc"; "Base64DecodeFunc"; "Base64EncodeFunc";
   "TextEncodeBase64Func"; "TextDecodeBase64Func"; "Base64GzipFunc"; "URLEncodeFunc"; "BasenameFunc";
   "DirnameFunc"; "AbsPathFunc"; "PathExpandFunc"; "LogFunc"; "PowFunc"; "SignumFunc"; "ParseIntFunc";
   "SensitiveFunc"; "NonsensitiveFunc"; "StartsWithFunc"; "EndsWithFunc"; "ReplaceFunc"; "StrContainsFunc"].
Definition lower_letter (c : ascii) : ascii :=
  let n := nat_of_ascii c in if ((65 <=? n) && (n <=? 90))%nat then ascii_of_nat (n + 32) else c.
Fixpoint in_lower (s : string) : string :=
  match s with "" => "" | String c s' => String (lower_letter c) (in_lower s') end.
(* The name that a Go function has in documents: ListFunc is list. *)
Definition called (f n : string) : Prop := in_lower f = n +++ "func".
(* The directory that a function is made for. *)
Definition directory (m : maker) : option string := match m with OwnAt _ _ dir => Some dir | _ => None end.

(* ----- the table ----- *)

Lemma in_dec_true : forall n l, existsb (String.eqb n) l = true <-> In n l.
Proof.
  intros n l. rewrite existsb_exists. split; [intros (x & I & E); apply String.eqb_eq in E; subst; exact I|].
  intro I. exists n. split; [exact I|apply String.eqb_refl].
Qed.
Lemma lookup_some_in : forall (m : list (string * maker)) n f, lookup n m = Some f -> In (n, f) m.
Proof.
  induction m as [|[k x] m IH]; [discriminate|]. cbn [lookup]. intros n f H. destruct (eq_dec n k) as [->|N]; [left; congruence|right; apply IH; exact H].
Qed.
Lemma lookup_key : forall (m : list (string * maker)) n, In n (keys m) -> exists f, lookup n m = Some f.
Proof.
  induction m as [|[k x] m IH]; [intros n []|]. intros n I. cbn [lookup]. destruct (eq_dec n k) as [->|N]; [eexists; reflexivity|].
  destruct I as [I|I]; [cbn in I; congruence|exact (IH n I)].
Qed.
Fixpoint distinct (l : list string) : bool := match l with [] => true | x :: l' => negb (existsb (String.eqb x) l') && distinct l' end.
Lemma distinct_ok : forall l, distinct l = true -> NoDup l.
Proof.
  induction l as [|x l IH]; [constructor|]. cbn [distinct]. rewrite andb_true_iff, negb_true_iff. intros [A B]. constructor; [|exact (IH B)].
  intro I. apply in_dec_true in I. congruence.
Qed.
Lemma with_dir : forall dir rest, core_functions (dir :: rest) = (always ++ file_functions dir)%list.
Proof. intros. vm_compute. reflexivity. Qed.

(* No name is given twice, *)
Theorem C89_distinct : forall base, NoDup (keys (core_functions base)).
Proof.
  intros [|dir rest]; [apply distinct_ok; vm_compute; reflexivity|]. rewrite with_dir. apply distinct_ok. vm_compute. reflexivity.
Qed.
Print Assumptions C89_distinct.
(* a function of the package that is in the table has its own name there, and every function of the
   library has one that is described, *)
Theorem C89_named : forall base n f, lookup n (core_functions base) = Some f ->
  In n documented /\ forall g, f = Own g -> called g n /\ In g package_functions.
Proof.
  assert (X : forall dir, forallb (fun nf => existsb (String.eqb (fst nf)) documented &&
    match snd nf with Own g => String.eqb (in_lower g) (fst nf +++ "func") && existsb (String.eqb g) package_functions | _ => true end)
    (always ++ file_functions dir) = true) by (intro; vm_compute; reflexivity).
  assert (Y : forall base n f, In (n, f) (core_functions base) -> exists dir, In (n, f) (always ++ file_functions dir)).
  { intros [|dir rest] n f I; [exists ""; apply in_or_app; left; exact I|]. rewrite with_dir in I. exists dir. exact I. }
  intros base n f H. apply lookup_some_in, Y in H. destruct H as (dir & I).
  specialize (X dir). rewrite forallb_forall in X. apply X in I. cbn [fst snd] in I. apply andb_true_iff in I. destruct I as [I J].
  split; [apply in_dec_true; exact I|]. intros g ->. apply andb_true_iff in J. destruct J as [J K].
  split; [apply String.eqb_eq; exact J|apply in_dec_true; exact K].
Qed.
Print Assumptions C89_named.
(* the functions that read files are there exactly if a directory is given, and are made for it, *)
Theorem C89_files : forall dir rest n, In n ["file"; "fileexists"; "fileset"; "filebase64"; "filebase64sha256"; "filebase64sha512";
    "filemd5"; "filesha1"; "filesha256"; "filesha512"] ->
  lookup n (core_functions []) = None /\ exists f, lookup n (core_functions (dir :: rest)) = Some f /\ directory f = Some dir.
Proof.
  intros dir rest n I. rewrite with_dir. cbn [In] in I.
  decompose [or] I; subst; try contradiction; (split; [vm_compute; reflexivity|eexists; split; vm_compute; reflexivity]).
Qed.
Print Assumptions C89_files.
Theorem C89_others : forall dir rest n f, lookup n (core_functions (dir :: rest)) = Some f -> directory f = None ->
  lookup n (core_functions []) = Some f.
Proof.
  intros dir rest n f H D. rewrite with_dir in H. assert (N := C89_distinct (dir :: rest)). rewrite with_dir in N.
  assert (I := lookup_some_in _ _ _ H). apply in_app_or in I. destruct I as [I|I].
  - assert (K : In n (keys always)) by (apply in_map_iff; exists (n, f); split; [reflexivity|exact I]).
    destruct (lookup_key _ _ K) as (g & G). change (lookup n always = Some f). rewrite G.
    assert (E : lookup n (always ++ file_functions dir)%list = Some g).
    { clear -G. revert G. generalize always (file_functions dir). induction l as [|[k x] l IH]; [discriminate|]. intros l'. cbn [app lookup].
      destruct (eq_dec n k); [exact (fun E => E)|apply IH]. }
    congruence.
  - exfalso. cbn [file_functions In] in I. decompose [or] I; try contradiction; match goal with X : (_, _) = (_, _) |- _ => injection X as <- <- end; discriminate D.
Qed.
Print Assumptions C89_others.
(* and what is described is there, except three. *)
Theorem C89_available_partial : forall n, In n documented -> ~ In n ["templatefile"; "plantimestamp"; "type"] ->
  exists f, lookup n default_functions = Some f.
Proof.
  assert (X : forallb (fun n => existsb (String.eqb n) (["templatefile"; "plantimestamp"; "type"] ++ keys default_functions)) documented = true)
    by (vm_compute; reflexivity).
  rewrite forallb_forall in X. intros n I N. apply X in I. apply in_dec_true, in_app_or in I. destruct I as [I|I]; [contradiction|].
  exact (lookup_key _ _ I).
Qed.
Print Assumptions C89_available_partial.

(* Documents find all of this: whatever functions the caller gives, the table is in front. *)
Theorem C89_installed : forall fresh ref nd ref' t, default_tree_functions default_functions fresh ref = Ok (nd, ref') ->
  (lookup "functions" ref = None \/ lookup "functions" ref = Some RNil \/ exists t0, lookup "functions" ref = Some (RFuncs t0)) ->
  lookup "functions" ref' = Some (RFuncs t) ->
  forall n f, lookup n default_functions = Some f -> lookup n t = Some f.
Proof.
  intros fresh ref nd ref' t H R T n f L.
  destruct (default_tree_functions_spec default_functions fresh ref nd ref' (C89_distinct ["."]) H) as (_ & _ & _ & _ & A & B & _).
  destruct R as [R|[R|(t0 & R)]].
  - rewrite (A (or_introl R)) in T. congruence.
  - rewrite (A (or_intror R)) in T. congruence.
  - destruct (B t0 R) as (t' & T' & D & _). assert (t' = t) as -> by congruence. exact (D n f L).
Qed.
Print Assumptions C89_installed.

(* Not everything described is there, *)
Theorem C89_missing_refuted : forall n base, In n ["templatefile"; "plantimestamp"; "type"] ->
  In n documented /\ lookup n (core_functions base) = None.
Proof.
  intros n base I. split; [apply in_dec_true; cbn [In] in I; decompose [or] I; subst; try contradiction; vm_compute; reflexivity|].
  destruct base as [|dir rest]; [|rewrite with_dir]; cbn [In] in I; decompose [or] I; subst; try contradiction; vm_compute; reflexivity.
Qed.
Print Assumptions C89_missing_refuted.
(* and five functions of the package are not used: the library's stand in their place. *)
Theorem C89_own_refuted : forall base f n, In (f, n) [("TimeAddFunc", "timeadd"); ("ParseIntFunc", "parseint"); ("LogFunc", "log");
    ("PowFunc", "pow"); ("SignumFunc", "signum")] ->
  In f package_functions /\ called f n /\ lookup n (core_functions base) = Some (Lib "stdlib" f).
Proof.
  intros base f n I. cbn [In] in I.
  decompose [or] I; try contradiction; match goal with X : (_, _) = (_, _) |- _ => injection X as <- <- end;
    (split; [apply in_dec_true; vm_compute; reflexivity|split; [vm_compute; reflexivity|]]);
    (destruct base as [|dir rest]; [|rewrite with_dir]; vm_compute; reflexivity).
Qed.
Print Assumptions C89_own_refuted.
(* All others are. *)
Theorem C89_own_partial : forall f, In f package_functions -> ~ In f ["TimeAddFunc"; "ParseIntFunc"; "LogFunc"; "PowFunc"; "SignumFunc"; "TypeFunc"] ->
  exists n, called f n /\ lookup n default_functions = Some (Own f).
Proof.
  assert (X : forallb (fun f => existsb (String.eqb f) (["TimeAddFunc"; "ParseIntFunc"; "LogFunc"; "PowFunc"; "SignumFunc"; "TypeFunc"] ++
    map (fun nf => match snd nf with Own g => g | _ => "" end) default_functions)) package_functions = true) by (vm_compute; reflexivity).
  rewrite forallb_forall in X. intros f I N. assert (J := X f I). apply in_dec_true, in_app_or in J. destruct J as [J|J]; [contradiction|].
  apply in_map_iff in J. destruct J as ((n & m) & E & J). cbn [snd] in E. destruct m as [g| | |]; try (subst f; exfalso; revert I; clear; intro I; apply in_dec_true in I; vm_compute in I; discriminate I).
  subst g. exists n.
  assert (L : lookup n default_functions = Some (Own f)).
  { destruct (lookup_key default_functions n) as (m & L); [apply in_map_iff; exists (n, Own f); split; [reflexivity|exact J]|].
    assert (D := C89_distinct ["."]). fold default_functions in D. assert (J' := lookup_some_in _ _ _ L). rewrite L. f_equal.
    clear -D J J'. revert D J J'. generalize default_functions. induction l as [|[k x] l IH]; [intros _ []|]. cbn [keys map fst]. intro D.
    inversion D as [|? ? Nk D']; subst. intros [J|J] [J'|J'].
    - congruence.
    - exfalso. apply Nk. injection J as -> ->. apply in_map_iff. exists (n, m). split; [reflexivity|exact J'].
    - exfalso. apply Nk. injection J' as -> ->. apply in_map_iff. exists (n, Own f). split; [reflexivity|exact J].
    - exact (IH D' J J'). }
  split; [|exact L]. exact (proj1 (proj2 (C89_named ["."] n (Own f) L) f eq_refl)).
Qed.
Print Assumptions C89_own_partial.

Example C89_sample : lookup "sum" default_functions = Some (Own "SumFunc") /\ lookup "filebase64" default_functions = Some (OwnAt "MakeFileFunc" true ".")
  /\ lookup "upper" default_functions = Some (Lib "stdlib" "UpperFunc") /\ List.length default_functions = 115%nat.
Proof. vm_compute. repeat split. Qed.
