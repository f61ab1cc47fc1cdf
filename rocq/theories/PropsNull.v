(* C90: null arguments, unknown ones and ones of a wrong type never reach the functions that do not ask for them. *)
From Coq Require Import List String Bool ZArith.
From Verif Require Import Base CtyModel FuncModel FuncProofs FuncUnknown EncModel PathModel FilesetModel TimeModel CryptoModel NumberModel CidrFuncModel.
Import ListNotations.
Local Open Scope string_scope.

(* ----- the specification ----- *)

(* Each argument beside the type wanted of it: those of the parameters, then that of all further ones if there may be any. *)
Inductive wanted : list ty -> option ty -> list value -> list (ty * value) -> Prop :=
| wanted_none : forall var, wanted [] var [] []
| wanted_param : forall t ts var v vs l, wanted ts var vs l -> wanted (t :: ts) var (v :: vs) ((t, v) :: l)
| wanted_more : forall t v vs l, wanted [] (Some t) vs l -> wanted [] (Some t) (v :: vs) ((t, v) :: l).

Definition null (v : value) : Prop := exists t, shape_of v = SNull t.
Definition untyped (v : value) : Prop := kind_of (type_of v) = KDyn.
Definition fits (t : ty) (v : value) : Prop := t = dyn \/ type_of v = t.
(* of the type wanted, and not null *)
Definition good (tv : ty * value) : Prop := ~ null (snd tv) /\ ~ untyped (snd tv) /\ fits (fst tv) (snd tv).
(* types without an "any" in them *)
Definition concrete (t : ty) : Prop := has_dyn t = false.
Definition is_unknown_of (t : ty) (v : value) : Prop := shape_of v = SUnknown t "".

(* What a function of the parameter types ts, the type var of further arguments and the result type t does before its own code is run. *)
Record guarded (f : func) (ts : list ty) (var : option ty) (t : ty) : Prop :=
  { (* the wrong number of arguments *)
    g_number : forall early args, (forall l, ~ wanted ts var args l) -> call early f args = Err "wrong number of arguments";
    (* the first argument that is not good is null *)
    g_null : forall early args l1 w v l2, wanted ts var args (l1 ++ (w, v) :: l2) -> Forall good l1 ->
      null v -> call early f args = Err "argument must not be null";
    (* … is of a type that is not known yet *)
    g_untyped : forall early args l1 w v l2, wanted ts var args (l1 ++ (w, v) :: l2) -> Forall good l1 ->
      ~ null v -> untyped v -> exists r, call early f args = Ok r /\ is_unknown_of dyn r;
    (* … is of another type *)
    g_type : forall early args l1 w v l2, wanted ts var args (l1 ++ (w, v) :: l2) -> Forall good l1 ->
      ~ null v -> ~ untyped v -> concrete w -> type_of v <> w -> call early f args = Err "inappropriate value";
    (* all are good, and one is not known *)
    g_unknown : forall early args l, wanted ts var args l -> Forall good l ->
      (exists v t', In v args /\ exists pre, shape_of v = SUnknown t' pre) ->
      exists r, call early f args = Ok r /\ is_unknown_of t r }.

(* ----- proofs ----- *)

Definition strict (p : param) : Prop := p_null p = false /\ p_unknown p = false /\ p_dyn p = false.

Lemma wanted_pairs : forall ts var args l, wanted ts var args l -> forall ps vp,
  map p_type ps = ts -> option_map p_type vp = var ->
  exists l', pair_args ps vp args = Some l' /\ map (fun pv => (p_type (fst pv), snd pv)) l' = l /\
    (forall p v, In (p, v) l' -> In p ps \/ vp = Some p) /\ map snd l' = args.
Proof.
  induction 1; intros ps vp E Ev.
  - destruct ps; [|discriminate]. exists []. repeat split; try reflexivity. intros p v [].
  - destruct ps as [|p ps]; [discriminate|]. cbn in E. injection E as <- E.
    destruct (IHwanted ps vp E Ev) as (l' & A & B & C & D). exists ((p, v) :: l'). cbn [pair_args map fst snd]. rewrite A, B, D.
    repeat split; try reflexivity. intros q w [H'|H']; [injection H' as <- <-; left; left; reflexivity|].
    destruct (C q w H'); [left; right; assumption|right; assumption].
  - destruct ps; [|discriminate]. destruct vp as [p|]; [|discriminate]. cbn in Ev. injection Ev as Et.
    destruct (IHwanted [] (Some p)) as (l' & A & B & C & D); [reflexivity|cbn; congruence|].
    exists ((p, v) :: l'). cbn [pair_args map fst snd]. rewrite A, B, D, Et. repeat split; try reflexivity.
    intros q w [H'|H']; [injection H' as <- <-; right; reflexivity|]. exact (C q w H').
Qed.

Lemma pairs_wanted : forall args ps vp l, pair_args ps vp args = Some l ->
  wanted (map p_type ps) (option_map p_type vp) args (map (fun pv => (p_type (fst pv), snd pv)) l).
Proof.
  induction args as [|v args IH]; intros ps vp l H.
  - destruct ps; [|discriminate]. injection H as <-. constructor.
  - destruct ps as [|p ps].
    + cbn [pair_args] in H. destruct vp as [p|]; [|discriminate]. destruct (pair_args [] (Some p) args) eqn:E; [|discriminate].
      injection H as <-. cbn [map option_map fst snd]. constructor. exact (IH [] (Some p) _ E).
    + cbn [pair_args] in H. destruct (pair_args ps vp args) eqn:E; [|discriminate]. injection H as <-. cbn [map fst snd]. constructor. exact (IH _ _ _ E).
Qed.

Lemma null_is : forall v, null v <-> is_null v = true.
Proof.
  intro v. unfold null, is_null. destruct (shape_of v); split; intro H; try discriminate; try (destruct H; discriminate).
  - reflexivity.
  - eexists; reflexivity.
Qed.
Lemma not_null : forall v, ~ null v <-> is_null v = false.
Proof. intro v. rewrite null_is. destruct (is_null v); split; intro H; try discriminate; try reflexivity. destruct (H eq_refl). Qed.

Lemma dyn_kind : forall v, kind_eqb (kind_of (type_of v)) KDyn = true <-> untyped v.
Proof. intro v. unfold untyped. destruct (kind_of (type_of v)); split; intro H; reflexivity || discriminate. Qed.
Lemma typed_kind : forall v, kind_eqb (kind_of (type_of v)) KDyn = false <-> ~ untyped v.
Proof. intro v. rewrite <- dyn_kind. destruct (kind_eqb _ _); split; intro H; try discriminate; try reflexivity. destruct (H eq_refl). Qed.

Lemma good_check : forall l1 l2, (forall p v, In (p, v) l1 -> strict p) ->
  Forall good (map (fun pv => (p_type (fst pv), snd pv)) l1) -> check_args (l1 ++ l2) = check_args l2.
Proof.
  induction l1 as [|[p v] l1 IH]; intros l2 S G; [reflexivity|].
  cbn [map fst snd] in G. inversion G as [|? ? [N [U F]] G']; subst. cbn [fst snd] in N, U, F.
  cbn [app check_args]. apply not_null in N. apply typed_kind in U. rewrite N, U. cbn [andb].
  assert (E : conforms (type_of v) (p_type p) = true).
  { destruct F as [->| <-]; [apply conforms_dyn|apply conforms_refl]. }
  rewrite E. cbn [negb]. apply IH; [intros q w H; apply (S q w); right; exact H|exact G'].
Qed.

Lemma map_split : forall (l : list (param * value)) l1 w v l2,
  map (fun pv => (p_type (fst pv), snd pv)) l = (l1 ++ (w, v) :: l2)%list ->
  exists k1 p k2, l = (k1 ++ (p, v) :: k2)%list /\ p_type p = w /\ map (fun pv => (p_type (fst pv), snd pv)) k1 = l1.
Proof.
  intros l l1. revert l. induction l1 as [|x l1 IH]; intros [|[p a] l] w v l2 H; try discriminate.
  - cbn [app map fst snd] in H. injection H as <- <- _. exists [], p, l. repeat split.
  - cbn [app map fst snd] in H. injection H as <- H. destruct (IH _ _ _ _ H) as (k1 & q & k2 & -> & A & B).
    exists ((p, a) :: k1), q, k2. cbn [map fst snd]. rewrite B. repeat split. exact A.
Qed.

Lemma unknown_with : forall ms t, is_unknown_of t (with_marks ms (unknown t)).
Proof. reflexivity. Qed.

Lemma strict_guarded : forall f ts var t, (forall p, In p (f_params f) \/ f_var f = Some p -> strict p) ->
  map p_type (f_params f) = ts -> option_map p_type (f_var f) = var -> (forall vs, f_type f vs = Ok t) -> guarded f ts var t.
Proof.
  intros f ts var t S Ets Ev T. constructor.
  - intros early args N. unfold call. destruct (pair_args _ _ _) eqn:E; [|reflexivity].
    apply pairs_wanted in E. rewrite Ets, Ev in E. destruct (N _ E).
  - intros early args l1 w v l2 W G N. destruct (wanted_pairs _ _ _ _ W _ _ Ets Ev) as (l & A & B & C & _).
    destruct (map_split _ _ _ _ _ B) as (k1 & p & k2 & -> & <- & <-). unfold call. rewrite A, good_check; [|intros q x H; apply S, (C q x), in_or_app; left; exact H|exact G].
    cbn [check_args]. apply null_is in N. rewrite N. destruct (S p (C p v (in_elt _ _ _))) as (-> & _). reflexivity.
  - intros early args l1 w v l2 W G N U. destruct (wanted_pairs _ _ _ _ W _ _ Ets Ev) as (l & A & B & C & _).
    destruct (map_split _ _ _ _ _ B) as (k1 & p & k2 & -> & <- & <-). unfold call. rewrite A, good_check; [|intros q x H; apply S, (C q x), in_or_app; left; exact H|exact G].
    cbn [check_args]. apply not_null in N. apply dyn_kind in U. rewrite N, U. cbn [andb].
    destruct (S p (C p v (in_elt _ _ _))) as (_ & _ & ->). cbn [bindr]. eexists. split; [reflexivity|apply unknown_with].
  - intros early args l1 w v l2 W G N U D X. destruct (wanted_pairs _ _ _ _ W _ _ Ets Ev) as (l & A & B & C & _).
    destruct (map_split _ _ _ _ _ B) as (k1 & p & k2 & -> & <- & <-). unfold call. rewrite A, good_check; [|intros q x H; apply S, (C q x), in_or_app; left; exact H|exact G].
    cbn [check_args]. apply not_null in N. apply typed_kind in U. rewrite N, U. cbn [andb].
    destruct (conforms (type_of v) (p_type p)) eqn:E; [apply conforms_fixed in E; [contradiction|exact D]|]. reflexivity.
  - intros early args l W G (v & t' & I & pre & E). destruct (wanted_pairs _ _ _ _ W _ _ Ets Ev) as (l' & A & B & C & D). subst l.
    assert (K : check_args l' = Ok false).
    { rewrite <- (app_nil_r l'), good_check; [reflexivity|intros q x H; apply S, (C q x), H|exact G]. }
    unfold call. rewrite A, K. cbn [bindr]. rewrite T. cbn [no_panic bindr].
    assert (X : existsb unknown_arg l' = true).
    { rewrite <- D in I. apply in_map_iff in I. destruct I as ([p x] & <- & I). apply existsb_exists. exists (p, x). split; [exact I|].
      unfold unknown_arg, is_known. cbn [fst snd] in *. rewrite E. destruct (S p (C p x I)) as (_ & -> & _). reflexivity. }
    rewrite X. eexists. split; [reflexivity|apply unknown_with].
Qed.

Ltac strict_tac := apply strict_guarded; [cbn; intros p [H|H]; [repeat (destruct H as [H|H]; [subst p; repeat split|]); try contradiction|try discriminate; try (injection H as <-; repeat split)]|reflexivity|reflexivity|reflexivity].

(* ----- the theorems ----- *)

(* Encodings, hashes, passwords and keys *)
Theorem C90_encodings : forall nfc quoted encoding iana iana_name encoder decoder gzip h enc itoa sha1 blowfish key parse_key decrypt random,
  guarded (base64encode_func nfc) [str] None str /\
  guarded (base64decode_func nfc quoted) [str] None str /\
  guarded (urlencode_func nfc) [str] None str /\
  guarded (textencodebase64_func nfc quoted encoding iana iana_name encoder) [str; str] None str /\
  guarded (textdecodebase64_func nfc quoted encoding iana iana_name decoder) [str; str] None str /\
  guarded (base64gzip_func nfc gzip) [str] None str /\
  guarded (hash_func nfc h enc) [str] None str /\
  guarded (uuid_func nfc random) [] None str /\
  guarded (uuidv5_func nfc quoted itoa sha1) [str; str] None str /\
  guarded (bcrypt_func nfc itoa blowfish) [str] (Some numt) str /\
  guarded (rsadecrypt_func nfc quoted key parse_key decrypt) [str; str] None str.
Proof. intros. repeat (apply conj); strict_tac. Qed.
Print Assumptions C90_encodings.

(* Paths and files *)
Theorem C90_files : forall nfc quoted cwd home open_path stat_path stat_error glob base b64 h enc,
  guarded (basename_func nfc) [str] None str /\
  guarded (dirname_func nfc) [str] None str /\
  guarded (abspath_func nfc cwd) [str] None str /\
  guarded (pathexpand_func nfc home) [str] None str /\
  guarded (file_func nfc quoted home open_path base b64) [str] None str /\
  guarded (file_hash_func nfc home open_path base h enc) [str] None str /\
  guarded (fileexists_func quoted home stat_path base) [str] None boolt /\
  guarded (fileset_func nfc quoted glob stat_path stat_error base) [str; str] None (Ty KSet [("", str)]).
Proof. intros. repeat (apply conj); strict_tac. Qed.
Print Assumptions C90_files.

(* Texts, numbers, collections and times *)
Theorem C90_values : forall same_number convert replace_regexp local quoted float_part now t mlog mpow quotient,
  guarded alltrue_func [list_of boolt] None boolt /\
  guarded anytrue_func [list_of boolt] None boolt /\
  guarded (index_func same_number) [dyn; dyn] None numt /\
  guarded (sum_func convert) [dyn] None numt /\
  guarded transpose_func [map_of (list_of str)] None (map_of (list_of str)) /\
  guarded endswith_func [str; str] None boolt /\
  guarded strcontains_func [str; str] None boolt /\
  guarded (replace_func replace_regexp) [str; str; str] None str /\
  guarded signum_func [numt] None numt /\
  guarded (log_func mlog quotient) [numt; numt] None numt /\
  guarded (pow_func mpow) [numt; numt] None numt /\
  guarded (timeadd_func local quoted float_part) [str; str] None str /\
  guarded (timecmp_func local quoted) [str; str] None numt /\
  guarded (timestamp_func local now) [] None str /\
  guarded (static_timestamp_func local t) [] None str.
Proof. intros. repeat (apply conj); strict_tac. Qed.
Print Assumptions C90_values.

(* Networks *)
Theorem C90_networks :
  guarded cidrhost_func [str; numt] None str /\ guarded cidrnetmask_func [str] None str /\
  guarded cidrsubnet_func [str; numt; numt] None str /\ guarded cidrsubnets_func [str] (Some numt) (list_of str).
Proof. repeat (apply conj); strict_tac. Qed.
Print Assumptions C90_networks.

(* startswith is the one of these that looks at an unknown first argument itself: it can answer. *)
Theorem C90_startswith : exists args l,
  wanted [str; str] None args l /\ Forall good l /\ In (Val [] (SUnknown str "https://") []) args /\
  call (fun _ => []) startswith_func args = Ok (bool_val true).
Proof.
  exists [Val [] (SUnknown str "https://") []; str_val "https"],
    [(str, Val [] (SUnknown str "https://") []); (str, str_val "https")].
  split; [repeat constructor|]. split.
  - repeat constructor; cbn; try (intros [? ?]; discriminate); try discriminate; right; reflexivity.
  - split; [left; reflexivity|]. vm_compute. reflexivity.
Qed.
Print Assumptions C90_startswith.

(* replace("a", null, …): the null is refused though the third argument is unknown; with a text
   in its place the result is unknown; a number is refused *)
Example C90_sample : forall rr early,
  call early (replace_func rr) [str_val "a"; plain (SNull str); unknown str] = Err "argument must not be null" /\
  call early (replace_func rr) [str_val "a"; num_val (int_val 1); plain (SNull str)] = Err "inappropriate value" /\
  call early (replace_func rr) [str_val "a"; str_val "b"] = Err "wrong number of arguments" /\
  (exists r, call early (replace_func rr) [str_val "a"; str_val "b"; unknown str] = Ok r /\ is_unknown_of str r) /\
  (exists r, call early (replace_func rr) [str_val "a"; unknown dyn; num_val (int_val 1)] = Ok r /\ is_unknown_of dyn r).
Proof. intros. repeat split; try reflexivity; eexists; split; reflexivity. Qed.
