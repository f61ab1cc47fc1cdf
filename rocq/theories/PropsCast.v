(* C87: tostring, tonumber and tobool; list and map. *)

From Verif Require Import Base CtyModel CtySpec HclModel HclSpec HclNumber FuncModel FuncSpec FuncProofs CastModel CastSpec CastProofs.
From Coq Require Import Lia.

(* tonumber of a text that says a number: a nearest number of 512 bits, with the marks. *)
Theorem C87_tonumber : forall far far_text quoted friendly early ms s m t b,
  numeral s m t b -> not_far m t b ->
  exists d, call early (to_primitive far far_text quoted friendly numt) [Val ms (SStr s) []]
            = Ok (Val ms (SNum (Fin 512 d)) [])
    /\ nearest_number d m t b.
Proof.
  intros far far_text quoted friendly early ms s m t b H F.
  destruct (parse_numeral far s m t b H F) as (d & E & N). exists d. split; [|exact N].
  rewrite call_primitive by reflexivity. cbn -[union contains_mark sensitive_mark append]. rewrite E. cbn -[union contains_mark sensitive_mark append]. rewrite union_nil. reflexivity.
Qed.
Print Assumptions C87_tonumber.

(* If the number has 512 bits, it is that number. *)
Theorem C87_exact : forall far far_text quoted friendly early ms s m t b y,
  numeral s m t b -> not_far m t b -> bits 512 y -> (num y * under_line t b = over_line m t b * pow2 (den y))%Z ->
  exists d, call early (to_primitive far far_text quoted friendly numt) [Val ms (SStr s) []]
            = Ok (Val ms (SNum (Fin 512 d)) [])
    /\ same_num y d.
Proof.
  intros far far_text quoted friendly early ms s m t b y H F B E.
  destruct (C87_tonumber far far_text quoted friendly early ms s m t b H F) as (d & C & N).
  exists d. split; [exact C|]. exact (nearest_exact d m t b y N B E).
Qed.
Print Assumptions C87_exact.

Theorem C87_infinite : forall far far_text quoted friendly early ms s negative, infinite_text s negative ->
  call early (to_primitive far far_text quoted friendly numt) [Val ms (SStr s) []] = Ok (Val ms (SNum (Inf negative)) []).
Proof.
  intros far far_text quoted friendly early ms s negative H. rewrite call_primitive by reflexivity.
  cbn -[union contains_mark sensitive_mark append]. rewrite (parse_infinite far s negative H). cbn -[union contains_mark sensitive_mark append]. rewrite union_nil. reflexivity.
Qed.
Print Assumptions C87_infinite.

(* Every other text is refused; the message has the text unless it is sensitive. *)
Lemma sensitive_text : forall ms s, contains_mark sensitive_mark (Val ms (SStr s) []) = has_mark sensitive_mark ms.
Proof. intros. unfold contains_mark. cbn [deep_marks]. rewrite app_nil_r. reflexivity. Qed.
Definition refusal (friendly : ty -> string) (secret : bool) (want : ty) (open : string) : string :=
  if secret then "cannot convert this sensitive " +++ friendly str +++ " to " +++ friendly want else open.
Theorem C87_no_number : forall far far_text quoted friendly early ms s,
  (forall m t b, ~ numeral s m t b) -> (forall negative, ~ infinite_text s negative) ->
  call early (to_primitive far far_text quoted friendly numt) [Val ms (SStr s) []]
  = Err (refusal friendly (has_mark sensitive_mark ms) numt
          ("cannot convert " +++ quoted s +++ " to number; given string must be a decimal representation of a number")).
Proof.
  intros far far_text quoted friendly early ms s H1 H2. rewrite call_primitive by reflexivity.
  assert (E : parse_float far s = None).
  { destruct (parse_float far s) as [v|] eqn:E; [exfalso|reflexivity].
    destruct (parse_sound far s v E) as [(neg & I & _)|(m & t & b & N)]; [exact (H2 neg I)|exact (H1 m t b N)]. }
  cbn -[union contains_mark sensitive_mark append]. rewrite E. cbn [bindr]. rewrite sensitive_text. unfold refusal. destruct (has_mark sensitive_mark ms); reflexivity.
Qed.
Print Assumptions C87_no_number.

Theorem C87_tobool : forall far far_text quoted friendly early ms s,
  call early (to_primitive far far_text quoted friendly boolt) [Val ms (SStr s) []] =
  if String.eqb s "true" || String.eqb s "1" then Ok (Val ms (SBool true) [])
  else if String.eqb s "false" || String.eqb s "0" then Ok (Val ms (SBool false) [])
  else Err (refusal friendly (has_mark sensitive_mark ms) boolt
              ("cannot convert " +++ quoted s +++ " to bool; only the strings ""true"" or ""false"" are allowed")).
Proof.
  intros far far_text quoted friendly early ms s. rewrite call_primitive by reflexivity. cbn -[union contains_mark sensitive_mark append].
  destruct (String.eqb s "true" || String.eqb s "1"); [cbn -[union contains_mark sensitive_mark append]; rewrite union_nil; reflexivity|].
  destruct (String.eqb s "false" || String.eqb s "0"); [cbn -[union contains_mark sensitive_mark append]; rewrite union_nil; reflexivity|].
  cbn [bindr]. rewrite sensitive_text. unfold refusal. destruct (has_mark sensitive_mark ms); reflexivity.
Qed.
Print Assumptions C87_tobool.

(* tostring of a boolean and of a whole number; both come back. *)
Theorem C87_tostring : forall far far_text quoted friendly early ms b p d z, is_whole d z -> (Z.abs z < 2 ^ p)%Z ->
  call early (to_primitive far far_text quoted friendly str) [Val ms (SBool b) []]
    = Ok (Val ms (SStr (if b then "true" else "false")) [])
  /\ call early (to_primitive far far_text quoted friendly str) [Val ms (SNum (Fin p d)) []]
    = Ok (Val ms (SStr (dec_Z z)) []).
Proof.
  intros far far_text quoted friendly early ms b p d z W H. split; rewrite call_primitive by reflexivity.
  - cbn -[union contains_mark sensitive_mark append]. rewrite union_nil. reflexivity.
  - cbn -[number_text union]. rewrite (whole_text far_text p d z W H). rewrite union_nil. reflexivity.
Qed.
Print Assumptions C87_tostring.

(* So do infinities. *)
Theorem C87_infinity_back : forall far far_text quoted friendly early ms (neg : bool),
  let t := if neg then "-Inf" else "+Inf" in
  call early (to_primitive far far_text quoted friendly str) [Val ms (SNum (Inf neg)) []] = Ok (Val ms (SStr t) [])
  /\ call early (to_primitive far far_text quoted friendly numt) [Val ms (SStr t) []] = Ok (Val ms (SNum (Inf neg)) []).
Proof.
  intros far far_text quoted friendly early ms neg t. unfold t. clear t. split; rewrite call_primitive by (destruct neg; reflexivity).
  - cbn -[union]. rewrite union_nil. reflexivity.
  - destruct neg; cbn -[union]; rewrite union_nil; reflexivity.
Qed.
Print Assumptions C87_infinity_back.

Theorem C87_bool_back : forall far far_text quoted friendly early ms b, exists t,
  call early (to_primitive far far_text quoted friendly str) [Val ms (SBool b) []] = Ok t
  /\ call early (to_primitive far far_text quoted friendly boolt) [t] = Ok (Val ms (SBool b) []).
Proof.
  intros far far_text quoted friendly early ms b. exists (Val ms (SStr (if b then "true" else "false")) []). split.
  - rewrite call_primitive by reflexivity. cbn -[union contains_mark sensitive_mark append]. rewrite union_nil. reflexivity.
  - rewrite C87_tobool. destruct b; reflexivity.
Qed.
Print Assumptions C87_bool_back.

Theorem C87_number_back : forall far far_text quoted friendly early ms p d z, is_whole d z ->
  (Z.abs z < 2 ^ p)%Z -> (Z.abs z < 2 ^ 512)%Z -> exists t d',
  call early (to_primitive far far_text quoted friendly str) [Val ms (SNum (Fin p d)) []] = Ok t
  /\ call early (to_primitive far far_text quoted friendly numt) [t] = Ok (Val ms (SNum (Fin 512 d')) [])
  /\ is_whole d' z.
Proof.
  intros far far_text quoted friendly early ms p d z W H H'.
  destruct (C87_tostring far far_text quoted friendly early ms true p d z W H) as [_ E].
  destruct (C87_tonumber far far_text quoted friendly early ms (dec_Z z) z 0 0 (dec_Z_numeral z) (whole_not_far z H')) as (d' & E' & N).
  exists (Val ms (SStr (dec_Z z)) []), d'. split; [exact E|]. split; [exact E'|].
  apply (says_whole_number d' z 0 0 z N); [|exact H']. unfold says_whole, over_line, under_line.
  change (10 ^ Z.max 0 0)%Z with 1%Z. change (2 ^ Z.max 0 0)%Z with 1%Z. change (10 ^ Z.max 0 (- 0))%Z with 1%Z.
  change (2 ^ Z.max 0 (- 0))%Z with 1%Z. lia.
Qed.
Print Assumptions C87_number_back.

(* A text that says a whole number becomes its digits by way of tonumber and tostring. *)
Theorem C87_normal : forall far far_text quoted friendly early ms s m t b z,
  numeral s m t b -> not_far m t b -> says_whole m t b z -> (Z.abs z < 2 ^ 512)%Z -> exists n,
  call early (to_primitive far far_text quoted friendly numt) [Val ms (SStr s) []] = Ok n
  /\ call early (to_primitive far far_text quoted friendly str) [n] = Ok (Val ms (SStr (dec_Z z)) []).
Proof.
  intros far far_text quoted friendly early ms s m t b z H F W Hz.
  destruct (C87_tonumber far far_text quoted friendly early ms s m t b H F) as (d & E & N).
  eexists. split; [exact E|].
  destruct (C87_tostring far far_text quoted friendly early ms true 512 d z (says_whole_number d m t b z N W Hz) Hz) as [_ E'].
  exact E'.
Qed.
Print Assumptions C87_normal.

(* What has the type already stays as it is; a null stays null; an unknown text stays unknown. *)
Definition primitive (t : ty) : Prop := t = str \/ t = numt \/ t = boolt.
Theorem C87_same : forall far far_text quoted friendly early want v, primitive want -> is_known v = true ->
  type_of v = want -> call early (to_primitive far far_text quoted friendly want) [v] = Ok v.
Proof.
  intros far far_text quoted friendly early want v P K T. rewrite call_primitive by exact K. rewrite T.
  assert (E : ty_eqb want want = true) by (destruct P as [->|[->| ->]]; reflexivity).
  rewrite E. cbn [orb]. unfold cast. rewrite T, E. reflexivity.
Qed.
Print Assumptions C87_same.

(* There is a conversion between texts and the other two, and from what has no type yet. *)
Definition related (t want : ty) : Prop :=
  kind_of t = KDyn \/ (t = str /\ (want = numt \/ want = boolt)) \/ ((t = numt \/ t = boolt) /\ want = str).
Definition well_formed (t : ty) : Prop := kind_of t = KStr \/ kind_of t = KNum \/ kind_of t = KBool -> ty_args t = [].
Lemma castable_related : forall t want, primitive want -> well_formed t -> castable t want = true <-> related t want.
Proof.
  intros [k args] want P W. unfold well_formed in W. cbn [kind_of ty_args] in W. unfold related, castable. cbn [kind_of].
  assert (A : k = KStr \/ k = KNum \/ k = KBool -> args = []) by exact W.
  destruct P as [->|[->| ->]]; cbn -[union contains_mark sensitive_mark append]; destruct k; split; intros H; try reflexivity; try discriminate; auto;
    try (rewrite A by tauto; unfold str, numt, boolt; intuition congruence);
    unfold str, numt, boolt in H; intuition congruence.
Qed.
Theorem C87_null : forall far far_text quoted friendly early ms t want, primitive want -> related t want ->
  call early (to_primitive far far_text quoted friendly want) [Val ms (SNull t) []] = Ok (Val ms (SNull want) []).
Proof.
  intros far far_text quoted friendly early ms t want P R. rewrite call_primitive by reflexivity. cbn [type_of].
  assert (C : castable t want = true).
  { apply castable_related; [exact P| |exact R]. destruct R as [R|[[-> _]|[[->| ->] _]]]; unfold well_formed; cbn -[union contains_mark sensitive_mark append]; auto.
    rewrite R. intros [H|[H|H]]; discriminate H. }
  assert (N : ty_eqb t want = false).
  { destruct t as [k a]. destruct R as [R|[[R [->| ->]]|[[R|R] ->]]]; cbn in R; try (inversion R; reflexivity).
    subst k. destruct P as [->|[->| ->]]; reflexivity. }
  unfold cast. cbn [type_of shape_of marks_of]. rewrite N, C. cbn -[union contains_mark sensitive_mark append]. rewrite union_nil. reflexivity.
Qed.
Print Assumptions C87_null.

(* Between other types there is none. *)
Theorem C87_unrelated : forall far far_text quoted friendly early want v, primitive want -> is_known v = true ->
  well_formed (type_of v) -> type_of v <> want -> ~ related (type_of v) want ->
  call early (to_primitive far far_text quoted friendly want) [v]
  = Err ("cannot convert " +++ friendly (type_of v) +++ " to " +++ friendly want).
Proof.
  intros far far_text quoted friendly early want v P K W T R. rewrite call_primitive by exact K.
  destruct (castable (type_of v) want) eqn:C; [elim R; apply castable_related; assumption|].
  destruct (ty_eqb (type_of v) want) eqn:E; [elim T|reflexivity].
  apply ty_eqb_eq. exact E.
Qed.
Print Assumptions C87_unrelated.

(* What is not known yet stays unknown, with the type asked for; if there is no conversion the
   call fails already. *)
Theorem C87_unknown : forall far far_text quoted friendly early want v, primitive want -> is_known v = false -> well_formed (type_of v) ->
  (type_of v = want \/ related (type_of v) want ->
     exists r, call early (to_primitive far far_text quoted friendly want) [v] = Ok r /\ shape_of r = SUnknown want "") /\
  (type_of v <> want -> ~ related (type_of v) want ->
     call early (to_primitive far far_text quoted friendly want) [v] = Err ("cannot convert " +++ friendly (type_of v) +++ " to " +++ friendly want)).
Proof.
  intros far far_text quoted friendly early want v P K W.
  assert (C : call early (to_primitive far far_text quoted friendly want) [v] =
    if ty_eqb (type_of v) want || castable (type_of v) want then Ok (with_marks (early [(mkParam dyn true false true true, v)]) (unknown want))
    else Err ("cannot convert " +++ friendly (type_of v) +++ " to " +++ friendly want)).
  { unfold call, to_primitive, to_func. cbn [f_params f_var pair_args check_args p_null p_dyn p_type negb]. rewrite !andb_false_r, conforms_dyn. cbn [negb].
    destruct (kind_eqb (kind_of (type_of v)) KDyn); cbn [bindr map f_type f_impl existsb];
      unfold seen, unknown_arg; cbn [fst snd p_marked p_unknown]; rewrite K; cbn [negb andb orb];
      (destruct (ty_eqb (type_of v) want || castable (type_of v) want); reflexivity). }
  rewrite C. split.
  - intro H. assert (Y : ty_eqb (type_of v) want || castable (type_of v) want = true).
    { apply orb_true_iff. destruct H as [H|H]; [left; apply ty_eqb_eq; exact H|right; apply castable_related; assumption]. }
    rewrite Y. eexists. split; reflexivity.
  - intros T R. assert (Y : ty_eqb (type_of v) want || castable (type_of v) want = false).
    { apply orb_false_iff. split; apply not_true_iff_false; intro H; [apply T, ty_eqb_eq; exact H|apply R, castable_related; assumption]. }
    rewrite Y. reflexivity.
Qed.
Print Assumptions C87_unknown.

(* list and map refuse whatever they are given. *)
Theorem C87_gone : forall early args,
  call early list_func args = Err "the ""list"" function was deprecated in Terraform v0.12 and is no longer available; use tolist([ ... ]) syntax to write a literal list"
  /\ call early map_func args = Err "the ""map"" function was deprecated in Terraform v0.12 and is no longer available; use tomap({ ... }) syntax to write a literal map".
Proof.
  intros early args. unfold list_func, map_func, call, gone_func. cbn [f_params f_var f_type].
  assert (P : pair_args [] (Some all_param) args = Some (map (fun v => (all_param, v)) args)).
  { induction args as [|a args IH]; [reflexivity|]. cbn [pair_args map]. rewrite IH. reflexivity. }
  assert (C : check_args (map (fun v => (all_param, v)) args) = Ok false).
  { induction args as [|a args IH]; [reflexivity|]. cbn [map check_args all_param p_null p_dyn p_type negb].
    rewrite andb_false_r, conforms_dyn. cbn [negb].
    assert (IH' : check_args (map (fun v => (all_param, v)) args) = Ok false).
    { apply IH. cbn [pair_args map] in P. destruct (pair_args [] (Some all_param) args); congruence. }
    unfold all_param in IH'. destruct (kind_eqb (kind_of (type_of a)) KDyn); exact IH'. }
  rewrite P, C. cbn -[union contains_mark sensitive_mark append]. split; reflexivity.
Qed.
Print Assumptions C87_gone.

Definition far0 (negative : bool) (m t b : Z) : option number := None.
Definition far_text0 (p : Z) (d : dyadic) : string := "".
Definition name_of (t : ty) : string :=
  match kind_of t with KStr => "string" | KNum => "number" | KBool => "bool" | KList => "list" | _ => "?" end.
Definition in_quotes (s : string) : string := """" +++ s +++ """".
Definition convert_to (want : ty) (v : value) : result value :=
  call (fun _ => []) (to_primitive far0 far_text0 in_quotes name_of want) [v].

(* Minus twelve and a half times ten is minus 125, also in other words. *)
Lemma sample_numeral : numeral "-12.50e+1" (-1250) (-1) 0.
Proof.
  exists "-", (-1)%Z, "12.50", 1250%Z, 2%Z, "e+1", 1%Z.
  split; [reflexivity|]. split; [constructor|]. split; [|split; [|split; reflexivity]].
  - exists "12", "50". repeat split; try discriminate. right. reflexivity.
  - apply (xt_ten "e" "+" 1 "1"); auto; [constructor|reflexivity|discriminate|].
    change (1 * digits_from 0 "1")%Z with 1%Z. split; vm_compute; [discriminate|reflexivity].
Qed.
Example C87_sample :
  (exists n, convert_to numt (Val ["m"] (SStr "-12.50e+1") []) = Ok n /\ convert_to str n = Ok (Val ["m"] (SStr "-125") []))
  /\ (do n <- convert_to numt (str_val ".5p4"); convert_to str n) = Ok (str_val "8")
  /\ convert_to numt (str_val "-inf") = Ok (num_val (Inf true))
  /\ convert_to numt (str_val "1,000") = Err "cannot convert ""1,000"" to number; given string must be a decimal representation of a number"
  /\ convert_to numt (Val [sensitive_mark] (SStr "0x1F") []) = Err "cannot convert this sensitive string to number"
  /\ convert_to boolt (str_val "yes") = Err "cannot convert ""yes"" to bool; only the strings ""true"" or ""false"" are allowed"
  /\ convert_to boolt (bool_val true) = Ok (bool_val true)
  /\ convert_to numt (bool_val true) = Err "cannot convert bool to number"
  /\ convert_to str (list_val str [str_val "a"]) = Err "cannot convert list to string"
  /\ convert_to boolt (Val ["m"] (SNull dyn) []) = Ok (Val ["m"] (SNull boolt) [])
  /\ convert_to numt (plain (SUnknown str "")) = Ok (unknown numt)
  /\ convert_to numt (unknown boolt) = Err "cannot convert bool to number"
  /\ call (fun _ => []) list_func [str_val "a"; unknown dyn] = call (fun _ => []) list_func [].
Proof.
  split; [|repeat split; vm_compute; reflexivity].
  - apply (C87_normal far0 far_text0 in_quotes name_of (fun _ => []) ["m"] _ _ _ _ (-125) sample_numeral).
    + right. split; [lia|]. exists 11%Z. change (2 ^ 30)%Z with 1073741824%Z. vm_compute. intuition discriminate.
    + reflexivity.
    + reflexivity.
Qed.

(* The message for booleans says that only "true" and "false" are allowed: "1" and "0" are too. *)
Theorem C87_words_refuted : ~ forall far far_text quoted friendly early s v,
  call early (to_primitive far far_text quoted friendly boolt) [str_val s] = Ok v -> s = "true" \/ s = "false".
Proof.
  intros H. destruct (H far0 far_text0 in_quotes name_of (fun _ => []) "1" (bool_val true) eq_refl) as [E|E]; discriminate E.
Qed.
Print Assumptions C87_words_refuted.

(* The message for numbers asks for a decimal representation: powers of two and infinities are
   taken as well. *)
Theorem C87_decimal_refuted : ~ forall far far_text quoted friendly early s v,
  call early (to_primitive far far_text quoted friendly numt) [str_val s] = Ok v ->
  (exists negative, v = num_val (Inf negative)) \/ exists m t, numeral s m t 0.
Proof.
  intros H. assert (N : numeral "1p3" 1 0 3).
  { exists "", 1%Z, "1", 1%Z, 0%Z, "p3", 0%Z. split; [reflexivity|]. split; [constructor|]. split; [|split; [|split; reflexivity]].
    - exists "1", "". repeat split; try discriminate. left. split; reflexivity.
    - apply (xt_two "p" "" 1 "3"); auto; [constructor|reflexivity|discriminate|].
      change (1 * digits_from 0 "3")%Z with 3%Z. split; vm_compute; [discriminate|reflexivity]. }
  assert (F : not_far 1 0 3).
  { right. split; [lia|]. exists 1%Z. change (2 ^ 30)%Z with 1073741824%Z. vm_compute. intuition discriminate. }
  destruct (C87_tonumber far0 far_text0 in_quotes name_of (fun _ => []) [] "1p3" 1 0 3 N F) as (d & E & _).
  destruct (H _ _ _ _ _ _ _ E) as [(neg & I)|(m & t & M)]; [discriminate I|].
  destruct (numeral_unique _ _ _ _ _ _ _ N M) as (_ & _ & B). discriminate B.
Qed.
Print Assumptions C87_decimal_refuted.
Theorem C87_infinite_refuted : ~ forall far far_text quoted friendly early s v,
  call early (to_primitive far far_text quoted friendly numt) [str_val s] = Ok v -> exists m t b, numeral s m t b.
Proof.
  intros H. destruct (H far0 far_text0 in_quotes name_of (fun _ => []) "Inf" _ eq_refl) as (m & t & b & N).
  destruct (numeral_steps _ _ _ _ N) as (neg & r & n & k & r2 & x & _ & _ & _ & _ & _ & _ & E). discriminate E.
Qed.
Print Assumptions C87_infinite_refuted.

(* Whole numbers of more than 512 bits lose digits. *)
Theorem C87_digits_refuted : ~ forall far far_text quoted friendly early s s' m m' v,
  numeral s m 0 0 -> numeral s' m' 0 0 ->
  call early (to_primitive far far_text quoted friendly numt) [str_val s] = Ok v ->
  call early (to_primitive far far_text quoted friendly numt) [str_val s'] = Ok v -> m = m'.
Proof.
  intros H.
  assert (E : convert_to numt (str_val (dec_Z (10 ^ 155))) = convert_to numt (str_val (dec_Z (10 ^ 155 + 1)))) by (vm_compute; reflexivity).
  destruct (convert_to numt (str_val (dec_Z (10 ^ 155)))) as [v| |] eqn:F; [|vm_compute in F; discriminate F|vm_compute in F; discriminate F].
  assert (K : (10 ^ 155 = 10 ^ 155 + 1)%Z)
    by exact (H far0 far_text0 in_quotes name_of (fun _ => []) (dec_Z (10 ^ 155)) (dec_Z (10 ^ 155 + 1)) _ _ v
                (dec_Z_numeral _) (dec_Z_numeral _) F (eq_sym E)).
  lia.
Qed.
Print Assumptions C87_digits_refuted.
