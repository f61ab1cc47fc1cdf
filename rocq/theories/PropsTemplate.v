(* The properties of templatefile. *)

From Verif Require Import Base CtyModel FuncModel FuncSpec FuncProofs EncModel EncSpec EncProofs PathModel PathSpec PathProofs PropsPath TemplateModel.
From Coq Require Import Lia.

(* ----- C75: templatefile ----- *)

Lemma first_none : forall p l, first_such p l = None <-> forall n, In n l -> p n = false.
Proof.
  intros p l. induction l as [|x l IH]; cbn; [split; [intros _ n []|reflexivity]|]. destruct (p x) eqn:E.
  - split; [discriminate|]. intro H. rewrite (H x (or_introl eq_refl)) in E. discriminate.
  - rewrite IH. split; [intros H n [<-|I]; auto|intros H n I; apply H; right; exact I].
Qed.

Section Template.
Variables (nfc quoted : string -> string) (home : result string) (open_path : string -> opened) (early : list (param * value) -> list mark).
Variables (expr : Type) (parse_template : string -> string -> result expr) (references : expr -> list string).
Variables (evaluate : expr -> list (string * value) -> list (string * func) -> result value) (valid_identifier : string -> bool).
Let templatefile := templatefile_func nfc quoted home open_path early expr parse_template references evaluate valid_identifier.
Let loads := load nfc quoted home open_path early expr parse_template.

Lemma load_file : forall at_place base here dir p b src e, by_place here open_path at_place -> nfc p = p -> leads here base dir -> names home dir p b ->
  at_place b = Bytes src -> utf8 src -> parse_template (nfc src) p = Ok e -> loads base p [] = Ok e.
Proof.
  intros at_place base here dir p b src e O P D B S U T. unfold loads, load, string_val. rewrite P.
  destruct (full_place home base here dir p b D B) as (q & F & Q). apply utf8_iff in U.
  assert (C : call early (file_func nfc quoted home open_path base false) [with_marks [] (str_val p)] = Ok (str_val (nfc src))).
  { unfold call, file_func. cbn -[full_path with_marks utf8_valid redact]. cbn [with_marks union]. cbn -[full_path utf8_valid redact]. unfold read_file.
    rewrite F. cbn [bindr]. rewrite (O q b Q), S. cbn [bindr]. rewrite U. reflexivity. }
  rewrite C. cbn. exact T.
Qed.

(* The result is what the template in the file says with the variables, which must have names that
   a template can use and be all that it refers to. *)
Theorem C75_render : forall at_place base here dir given p b src e t ms s vars r,
  by_place here open_path at_place -> nfc p = p -> leads here base dir -> names home dir p b ->
  at_place b = Bytes src -> utf8 src -> parse_template (nfc src) p = Ok e ->
  (s = SMap t \/ s = SObj) -> let v := Val ms s vars in let seen_vars := elems (unmark_deep v) in
  (forall n, In n (keys vars) -> valid_identifier n = true) -> (forall n, In n (references e) -> In n (keys vars)) ->
  evaluate e seen_vars (inner_functions given) = Ok r -> exists out,
  call early (templatefile base given) [plain (SStr p); v] = Ok out /\ shape_of out = shape_of r /\ elems out = elems r /\
  forall m, In m (marks_of out) <-> In m (marks_of r) \/ In m (deep_marks v).
Proof.
  intros at_place base here dir given p b src e t ms s vars r O P D B S U T Sh v vs I R E.
  assert (L := load_file at_place base here dir p b src e O P D B S U T).
  assert (Ks : keys vs = keys vars).
  { unfold vs, v. rewrite unmark_deep_eq. cbn [elems]. unfold keys, unmark_all. rewrite map_map. apply map_ext. intros []; reflexivity. }
  assert (F1 : first_such (fun n => negb (valid_identifier n)) (keys vs) = None).
  { apply first_none. intros n J. rewrite Ks in J. rewrite (I n J). reflexivity. }
  assert (F2 : first_such (fun n => match lookup n vs with Some _ => false | None => true end) (references e) = None).
  { apply first_none. intros n J. apply R in J. destruct (lookup n vs) eqn:X; [reflexivity|]. apply lookup_None in X. rewrite Ks in X. contradiction. }
  assert (Re : render quoted expr references evaluate valid_identifier given e (unmark_deep v) = Ok r).
  { unfold render. assert (X : unmark_deep v = Val [] s vs) by reflexivity. rewrite X. unfold iterate.
    destruct Sh as [->| ->]; cbn [type_of kind_of map_of]; cbn [bindr]; rewrite F1, F2; exact E. }
  assert (A : check_args [(marked_path, plain (SStr p)); (any_param, v)] = Ok false) by (unfold v; destruct Sh as [->| ->]; reflexivity).
  assert (Kn : is_known (unmark_deep v) = true /\ is_known v = true) by (unfold v; destruct Sh as [->| ->]; split; reflexivity).
  destruct Kn as [K1 _].
  assert (Un : existsb unknown_arg [(marked_path, plain (SStr p)); (any_param, v)] = false) by (unfold v; destruct Sh as [->| ->]; reflexivity).
  eexists. split.
  - unfold call, templatefile, templatefile_func. cbn [f_params f_var f_type f_impl params pair_args]. rewrite A. cbn [bindr map seen fst snd p_marked marked_path any_param].
    change (is_known (plain (SStr p))) with true. rewrite K1. cbn [andb negb]. cbn [unmark plain as_string bindr marks_of].
    unfold loads in L. rewrite L. cbn [bindr]. rewrite Re. cbn [bindr no_panic]. rewrite Un. reflexivity.
  - split; [rewrite !shape_with; reflexivity|]. split; [destruct r as [a x y]; reflexivity|]. intro m. rewrite !marks_with. cbn -[deep_marks v]. rewrite app_nil_r. tauto.
Qed.

(* Inside the template the function calls anything but itself. *)
Theorem C75_functions : forall (given : list (string * func)) n,
  match lookup n (inner_functions given) with
  | None => lookup n given = None
  | Some f => (n <> "templatefile" -> n <> "core::templatefile" -> lookup n given = Some f) /\
              (n = "templatefile" \/ n = "core::templatefile" -> forall p v r, call early f [plain (SStr p); v] = Ok r -> exists m, r = with_marks m (unknown dyn))
  end.
Proof.
  intros given n. assert (S : forall p v r, call early stub [plain (SStr p); v] = Ok r -> exists m, r = with_marks m (unknown dyn)).
  { intros p v r H. unfold call in H. cbn [f_params f_var stub params pair_args] in H.
    destruct (check_args _) as [[]|e|e]; cbn [bindr no_panic f_type stub] in H; try discriminate. exists (early [(marked_path, plain (SStr p)); (any_param, v)]). congruence. }
  unfold inner_functions. induction given as [|[k f] l IH]; [reflexivity|]. cbn [map fst].
  destruct (String.eqb_spec k "templatefile") as [->|A]; [|destruct (String.eqb_spec k "core::templatefile") as [->|B]]; cbn [orb lookup];
    (destruct (eq_dec n _) as [->|Ne]; [|exact IH]).
  - split; [congruence|intros _; exact S].
  - split; [congruence|intros _; exact S].
  - split; [reflexivity|]. intros [X|X]; congruence.
Qed.

(* A name that the template refers to and the variables do not have is an error. *)
Theorem C75_undefined : forall at_place base here dir given p b src e t ms s vars n,
  by_place here open_path at_place -> nfc p = p -> leads here base dir -> names home dir p b ->
  at_place b = Bytes src -> utf8 src -> parse_template (nfc src) p = Ok e ->
  (s = SMap t \/ s = SObj) -> In n (references e) -> ~ In n (keys vars) -> exists m,
  call early (templatefile base given) [plain (SStr p); Val ms s vars] = Err m.
Proof.
  intros at_place base here dir given p b src e t ms s vars n O P D B S U T Sh I R. set (v := Val ms s vars).
  assert (L := load_file at_place base here dir p b src e O P D B S U T).
  set (vs := elems (unmark_deep v)). assert (Ks : keys vs = keys vars).
  { unfold vs, v. rewrite unmark_deep_eq. cbn [elems]. unfold keys, unmark_all. rewrite map_map. apply map_ext. intros []; reflexivity. }
  assert (Re : exists m, render quoted expr references evaluate valid_identifier given e (unmark_deep v) = Err m).
  { unfold render. assert (X : unmark_deep v = Val [] s vs) by reflexivity. rewrite X. unfold iterate.
    assert (G : exists m, match first_such (fun n => negb (valid_identifier n)) (keys vs) with
      | Some n => Err ("invalid template variable name " +++ quoted n +++ ": must start with a letter, followed by zero or more letters, digits, and underscores")
      | None => match first_such (fun n => match lookup n vs with Some _ => false | None => true end) (references e) with
                | Some n => Err ("vars map does not contain key " +++ quoted n)
                | None => evaluate e vs (inner_functions given)
                end
      end = Err m).
    { destruct (first_such _ (keys vs)); [eauto|]. destruct (first_such _ (references e)) eqn:F; [eauto|]. exfalso.
      apply first_none with (n := n) in F; [|exact I]. destruct (lookup n vs) as [x|] eqn:Lk; [|discriminate].
      assert (J : In n (keys vs)) by (apply lookup_Some_key; eauto). rewrite Ks in J. contradiction. }
    destruct Sh as [->| ->]; cbn [type_of kind_of map_of]; cbn [bindr]; exact G. }
  destruct Re as [m Re].
  assert (A : check_args [(marked_path, plain (SStr p)); (any_param, v)] = Ok false) by (unfold v; destruct Sh as [->| ->]; reflexivity).
  assert (K1 : is_known (unmark_deep v) = true) by (unfold v; destruct Sh as [->| ->]; reflexivity).
  exists m. unfold call, templatefile, templatefile_func. cbn [f_params f_var f_type f_impl params pair_args]. rewrite A. cbn [bindr map seen fst snd p_marked marked_path any_param].
  change (is_known (plain (SStr p))) with true. rewrite K1. cbn [andb negb]. cbn [unmark plain as_string bindr marks_of].
  unfold loads in L. rewrite L. cbn [bindr]. rewrite Re. reflexivity.
Qed.

(* Nor are variables accepted that are no map or object, or that have a name no template can use. *)
Theorem C75_refused : forall at_place base here dir given p b src e ms s vars,
  by_place here open_path at_place -> nfc p = p -> leads here base dir -> names home dir p b ->
  at_place b = Bytes src -> utf8 src -> parse_template (nfc src) p = Ok e -> let v := Val ms s vars in
  is_known v = true -> kind_of (type_of v) <> KDyn ->
  (kind_of (type_of v) <> KMap /\ kind_of (type_of v) <> KObj) \/ (exists n, In n (keys vars) /\ valid_identifier n = false) -> exists m,
  call early (templatefile base given) [plain (SStr p); v] = Err m.
Proof.
  intros at_place base here dir given p b src e ms s vars O P D B S U T v K Dy Bad.
  assert (L := load_file at_place base here dir p b src e O P D B S U T).
  set (vs := elems (unmark_deep v)). assert (Ks : keys vs = keys vars).
  { unfold vs, v. rewrite unmark_deep_eq. cbn [elems]. unfold keys, unmark_all. rewrite map_map. apply map_ext. intros []; reflexivity. }
  destruct (is_null v) eqn:Nu.
  { exists "argument must not be null". unfold call, templatefile, templatefile_func. cbn [f_params f_var f_type f_impl params pair_args].
    unfold check_args. cbn [is_null plain shape_of p_null marked_path andb]. cbn -[is_null v any_param]. rewrite Nu. reflexivity. }
  assert (A : check_args [(marked_path, plain (SStr p)); (any_param, v)] = Ok false).
  { assert (Q : kind_eqb (kind_of (type_of v)) KDyn = false) by (destruct (kind_of (type_of v)); try reflexivity; congruence).
    assert (C : conforms (type_of v) dyn = true) by (destruct (type_of v) as [[] x]; reflexivity).
    change (check_args [(marked_path, plain (SStr p)); (any_param, v)]) with (check_args [(any_param, v)]).
    unfold check_args, any_param. cbn [p_null p_dyn p_type]. rewrite Nu, Q, C. reflexivity. }
  assert (Un : exists s', unmark_deep v = Val [] s' vs /\ s' = s) by (exists s; split; reflexivity). destruct Un as (s' & Un & ->).
  assert (Ty : kind_of (type_of (unmark_deep v)) = kind_of (type_of v)) by (rewrite Un; unfold v; destruct s; reflexivity).
  assert (Re : exists m, render quoted expr references evaluate valid_identifier given e (unmark_deep v) = Err m \/
                         render quoted expr references evaluate valid_identifier given e (unmark_deep v) = Panic m).
  { unfold render. rewrite Ty. destruct (kind_of (type_of v)) eqn:Ki; try (eexists; left; reflexivity).
    all: destruct Bad as [[B1 B2]|(n & I & V)]; [congruence|].
    all: destruct (iterate (unmark_deep v)) as [vars'|m|m] eqn:It; cbn [bindr]; [|eauto|eauto].
    all: assert (E : vars' = vs) by (revert It; rewrite Un; unfold v in *; destruct s; cbn; intro It; try discriminate It; congruence); subst vars'.
    all: destruct (first_such (fun n => negb (valid_identifier n)) (keys vs)) eqn:F; [eauto|].
    all: apply first_none with (n := n) in F; [rewrite V in F; discriminate F|rewrite Ks; exact I]. }
  assert (K1 : is_known (unmark_deep v) = true) by (rewrite Un; exact K).
  assert (G : exists m, no_panic (do e' <- loads base p []; do r <- render quoted expr references evaluate valid_identifier given e' (unmark_deep v); Ok (type_of r)) = Err m).
  { rewrite L. cbn [bindr]. destruct Re as (m & [-> | ->]); cbn [bindr no_panic]; eauto. }
  destruct G as [m G]. exists m. unfold call, templatefile, templatefile_func. cbn [f_params f_var f_type f_impl params pair_args]. rewrite A.
  cbn [bindr map seen fst snd p_marked marked_path any_param]. change (is_known (plain (SStr p))) with true. rewrite K1. cbn [andb negb]. cbn [unmark plain as_string bindr marks_of].
  unfold loads in G. rewrite G. reflexivity.
Qed.

(* A marked path, such as a sensitive one, is never accepted: the text of the file has its marks
   and is read as if it had none. *)
Theorem C75_marked_path_refuted : forall base given p ms t s vars, ms <> [] -> (s = SMap t \/ s = SObj) -> exists m,
  call early (templatefile base given) [Val ms (SStr p) []; Val [] s vars] = Err m.
Proof.
  intros base given p ms t s vars Ne Sh. set (v := Val [] s vars).
  assert (A : check_args [(marked_path, Val ms (SStr p) []); (any_param, v)] = Ok false) by (unfold v; destruct Sh as [->| ->]; reflexivity).
  assert (K1 : is_known (unmark_deep v) = true) by (unfold v; destruct Sh as [->| ->]; reflexivity).
  assert (L : (exists m, loads base p ms = Err m) \/ exists m, loads base p ms = Panic m).
  { unfold loads, load. change (with_marks ms (string_val nfc p)) with (Val (union [] ms) (SStr (nfc p)) []).
    assert (Ne' : union [] ms <> []) by (destruct ms; [congruence|discriminate]). generalize dependent (union [] ms). intros us Ne'.
    destruct (call early _ _) as [r|e|e] eqn:C; cbn [bindr]; [|eauto|eauto]. right. exists "not a string".
    assert (M : marks_of r <> []).
    { unfold call, file_func in C. cbn -[full_path with_marks utf8_valid redact] in C. unfold read_file in C.
      destruct (full_path home base (nfc p)) as [q|e|e]; cbn [bindr no_panic] in C; try discriminate.
      destruct (open_path q) as [|x|x|src]; cbn [bindr no_panic] in C; try discriminate.
      destruct (utf8_valid src); cbn [negb bindr no_panic] in C; [|discriminate]. injection C as <-.
      destruct us as [|m us]; [congruence|]. cbn. discriminate. }
    destruct r as [mr sr er]. cbn in M. destruct mr; [congruence|]. cbn. reflexivity. }
  unfold call, templatefile, templatefile_func. cbn [f_params f_var f_type f_impl params pair_args]. rewrite A. cbn [bindr map seen fst snd p_marked marked_path any_param].
  change (is_known (Val ms (SStr p) [])) with true. rewrite K1. cbn [andb negb]. cbn [unmark as_string bindr marks_of].
  unfold loads in L. destruct L as [[m ->]|[m ->]]; cbn [bindr no_panic]; eauto.
Qed.
End Template.
Print Assumptions C75_render.
Print Assumptions C75_functions.
Print Assumptions C75_undefined.
Print Assumptions C75_refused.
Print Assumptions C75_marked_path_refuted.

(* A template that names one variable. *)
Example C75_sample : forall quoted home early,
  let open_path := fun q => if String.eqb q "/w/hello.tmpl" then Bytes "name" else Missing in
  let evaluate := fun e vars (fs : list (string * func)) => match lookup e vars with Some v => Ok v | None => Err "no such variable" end in
  let f := templatefile_func (fun s => s) quoted home open_path early string (fun src _ => Ok src) (fun e => [e]) evaluate (fun n => negb (String.eqb n "")) "/w" [] in
  call early f [plain (SStr "hello.tmpl"); Val ["m"] SObj [("name", str_val "Jodie")]] = Ok (Val ["m"] (SStr "Jodie") []) /\
  call early f [plain (SStr "hello.tmpl"); Val [] SObj [("nam", str_val "Jodie")]] = Err ("vars map does not contain key " +++ quoted "name") /\
  call early f [plain (SStr "hello.tmpl"); Val [] STuple [("", str_val "Jodie")]] = Err "invalid vars value: must be a map".
Proof. intros. repeat split. Qed.
