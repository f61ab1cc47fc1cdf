(* C24 - C28: generic data through HCL text and back, and decoding HCL into maps. *)

From Verif Require Import Base CtyModel CtySpec CtyProofs CtyProofs2 HclModel HclSpec
  HclDecode HclParse HclScan HclRound HclProofs HclExact HclGrammar HclGrammarProofs.
From Coq Require Import Lia.

(* ----- C24: the round trip ----- *)

(* C24 in full: every map of JSON-like data comes back the same. *)
Definition C24_full : Prop := forall m, json (NMap m) ->
  exists t v, marshal (NMap m) = Ok (Some t) /\ decode_map t = Ok v /\ same (NMap m) v.

(* It holds for the supported data ([supported], HclSpec.v): no zero or null in a list, no nil
   map or slice, maps of maps either all of the same label depth or holding something else
   than maps, no maps of maps inside list elements.  The order of the entries is any. *)
Theorem C24_round_trip_partial : forall m, m <> [] -> body_map m ->
  exists t v, marshal (NMap m) = Ok (Some t) /\ decode_map t = Ok v /\ same (NMap m) v.
Proof. exact doc_round_trip. Qed.
Print Assumptions C24_round_trip_partial.

(* Every order of the entries of the supported data is supported. *)
Theorem C24_any_order : forall m m', body_map m -> Permutation m m' -> body_map m'.
Proof.
  intros m m' [m0 N H] P. constructor.
  - apply (Permutation_NoDup (Permutation_map fst P)). exact N.
  - intros k v I. apply H. apply (Permutation_in _ (Permutation_sym P)). exact I.
Qed.
Print Assumptions C24_any_order.

Definition sample : list (string * native) :=
  [("a", NInt 5); ("b", NList [NInt (-1); NStr "x y"; NMap [("q", NBool false); ("r", NMap [("t", NInt 0)])]]);
   ("c", NMap [("x y", NMap [("z", NNil)]); ("w", NMap [])]); ("d", NMap []);
   ("e", NMap [("l1", NMap [("l2", NMap [("g", NStr "")])])]); ("for", NInt64 5000000000)].

Ltac sc := match goal with |- scalar _ =>
  first [apply sc_bool | apply sc_str; cbn; intuition discriminate
        | apply sc_int; unfold in_int32; lia | apply sc_int64; unfold in_int32, in_int64; lia] end.

Example C24_sample_supported : body_map sample.
Proof.
  assert (I : forall k, In k (map fst sample) -> body_key k).
  { intros k H. cbn in H. decompose [or] H; subst; try contradiction; (split; [split; reflexivity|discriminate]). }
  assert (Nz : forall v, go_zero v = false -> scalar v -> supported InList v).
  { intros v G S. apply su_scalar; [exact S|]. intros _ Z. apply (zero_go_zero v S) in Z. congruence. }
  constructor.
  - cbn. repeat constructor; cbn; intuition discriminate.
  - intros k v H. split; [apply I; apply in_map_iff; exists (k, v); auto|].
    cbn in H. decompose [or] H; clear H; try contradiction;
      match goal with X : (_, _) = (_, _) |- _ => injection X as <- <- end.
    + apply su_scalar; [sc|discriminate].
    + apply su_list. intros w [<-|[<-|[<-|[]]]].
      * apply Nz; [reflexivity|sc].
      * apply Nz; [reflexivity|sc].
      * apply su_elem; [cbn; repeat constructor; cbn; intuition discriminate|].
        intros k v [[= <- <-]|[[= <- <-]|[]]]; (split; [split; [split; reflexivity|discriminate]|]).
        -- apply su_scalar; [sc|discriminate].
        -- apply su_obj; [cbn; repeat constructor; cbn; intuition|].
           intros k v [[= <- <-]|[]]. split; [split; [split; reflexivity|discriminate]|].
           apply su_scalar; [sc|discriminate].
    + apply su_block1; [discriminate|cbn; repeat constructor; cbn; intuition discriminate|].
      intros k v [[= <- <-]|[[= <- <-]|[]]]; (split; [cbn; intuition discriminate|]).
      * eexists. split; [reflexivity|]. split.
        -- constructor; [cbn; repeat constructor; cbn; intuition|].
           intros k v [[= <- <-]|[]]. split; [split; [split; reflexivity|discriminate]|].
           apply su_null. discriminate.
        -- right. exists "z", NNil. split; [left; reflexivity|]. intros m. split; discriminate.
      * exists []. split; [reflexivity|]. split; [constructor; [constructor|intros k v []]|]. left. reflexivity.
    + apply su_block; [|left; reflexivity]. constructor; [constructor|intros k v []].
    + apply su_block2; [discriminate|cbn; repeat constructor; cbn; intuition|].
      intros k v [[= <- <-]|[]]. split; [cbn; intuition discriminate|].
      eexists. split; [reflexivity|]. split; [discriminate|]. split; [cbn; repeat constructor; cbn; intuition|].
      intros k v [[= <- <-]|[]]. split; [cbn; intuition discriminate|]. eexists. split; [reflexivity|].
      constructor; [cbn; repeat constructor; cbn; intuition|].
      intros k v [[= <- <-]|[]]. split; [split; [split; reflexivity|discriminate]|].
      apply su_scalar; [sc|discriminate].
    + apply su_scalar; [sc|discriminate].
Qed.

(* Marshalling and decoding in one. *)
Definition through_hcl (v : native) : result native := do b <- marshal v; decode_map (bytes b).
Lemma through_ok : forall v w, through_hcl v = Ok w -> match marshal v with Ok None => False | _ => True end ->
  exists t, marshal v = Ok (Some t) /\ decode_map t = Ok w.
Proof.
  intros v w H N. unfold through_hcl in H. destruct (marshal v) as [[t|]| |]; try contradiction; try discriminate.
  exists t. auto.
Qed.
Lemma through_err : forall v e, through_hcl v = Err e -> match marshal v with Ok (Some _) => True | _ => False end ->
  exists t, marshal v = Ok (Some t) /\ decode_map t = Err e.
Proof.
  intros v w H N. unfold through_hcl in H. destruct (marshal v) as [[t|]| |]; try contradiction.
  exists t. auto.
Qed.

Example C24_sample : through_hcl (NMap sample) = Ok (NMap
      [("a", NInt 5); ("b", NList [NInt (-1); NStr "x y"; NMap [("q", NBool false); ("r", NMap [("t", NInt 0)])]]);
       ("for", NInt64 5000000000); ("d", NMap []);
       ("c", NMap [("x y", NMap [("z", NNil)]); ("w", NMap [])]);
       ("e", NMap [("l1", NMap [("l2", NMap [("g", NStr "")])])])]).
Proof. vm_compute. reflexivity. Qed.

(* C24 in full is false.  A map whose values are maps of different depth is written as blocks
   with one and with two labels, and the decoder keeps only the latter. *)
Definition mixed : list (string * native) :=
  [("k", NMap [("a", NMap [("x", NMap [])]); ("b", NMap [("z", NInt 1)])])].
Theorem C24_refuted : exists m, json (NMap m) /\ exists t obj,
  marshal (NMap m) = Ok (Some t) /\ decode_map t = Ok (NMap obj) /\ ~ same (NMap m) (NMap obj).
Proof.
  exists mixed. split.
  - apply js_map; [cbn; repeat constructor; cbn; intuition|].
    intros k v [[= <- <-]|[]]. split; [split; reflexivity|].
    apply js_map; [cbn; repeat constructor; cbn; intuition discriminate|].
    intros k v [[= <- <-]|[[= <- <-]|[]]]; (split; [split; reflexivity|]).
    + apply js_map; [cbn; repeat constructor; cbn; intuition|].
      intros k v [[= <- <-]|[]]. split; [split; reflexivity|]. apply js_map; [constructor|intros k v []].
    + apply js_map; [cbn; repeat constructor; cbn; intuition|].
      intros k v [[= <- <-]|[]]. split; [split; reflexivity|]. apply js_scalar. sc.
  - destruct (through_ok (NMap mixed) (NMap [("k", NMap [("a", NMap [("x", NMap [])])])])) as (t & E1 & E2).
    { vm_compute. reflexivity. }
    { vm_compute. exact I. }
    exists t. eexists. split; [exact E1|]. split; [exact E2|].
    intros H. inversion H as [v S| | | | | | |m m' N N' L1 L2]; subst.
    specialize (L2 "k" _ _ eq_refl eq_refl).
    inversion L2 as [v S| | | | | | |m m' M M' K1 K2]; subst.
    destruct (K1 "b") as [_ X]. discriminate (X eq_refl).
Qed.
Print Assumptions C24_refuted.

(* The empty map is written as white space, on which the decoder panics. *)
Theorem C24_empty_refuted : exists m, json (NMap m) /\ exists t e,
  marshal (NMap m) = Ok (Some t) /\ decode_map t = Panic e.
Proof.
  exists []. split; [apply js_map; [constructor|intros k v []]|].
  exists (nl +++ "  " +++ nl), "index out of range". split; vm_compute; reflexivity.
Qed.
Print Assumptions C24_empty_refuted.

(* A key with the name that marks list elements inside the marshaller changes the syntax of
   the block below it, and the text does not parse. *)
Theorem C24_marker_refuted : exists m, json (NMap m) /\ exists t e,
  marshal (NMap m) = Ok (Some t) /\ decode_map t = Err e.
Proof.
  exists [(nmr, NMap [("a", NMap [("b", NMap [("d", NInt 1)])]); ("c", NInt 2)])]. split.
  - apply js_map; [cbn; repeat constructor; cbn; intuition|].
    intros k v [[= <- <-]|[]]. split; [split; reflexivity|].
    apply js_map; [cbn; repeat constructor; cbn; intuition discriminate|].
    intros k v [[= <- <-]|[[= <- <-]|[]]]; (split; [split; reflexivity|]); [|apply js_scalar; sc].
    apply js_map; [cbn; repeat constructor; cbn; intuition|].
    intros k v [[= <- <-]|[]]. split; [split; reflexivity|].
    apply js_map; [cbn; repeat constructor; cbn; intuition|].
    intros k v [[= <- <-]|[]]. split; [split; reflexivity|]. apply js_scalar. sc.
  - match goal with |- exists t e, marshal ?v = _ /\ _ =>
      destruct (through_err v "syntax: missing key/value separator") as (t & E) end.
    { vm_compute. reflexivity. }
    { vm_compute. exact I. }
    exists t. eexists. exact E.
Qed.
Print Assumptions C24_marker_refuted.

(* ----- C25: strings ----- *)

(* C25 in full: every string comes back as it was, and brings nothing else with it. *)
Definition C25_full : Prop := forall k s, body_key k ->
  exists t, marshal (NMap [(k, NStr s)]) = Ok (Some t) /\ decode_map t = Ok (NMap [(k, NStr s)]).

(* It holds for the strings that need no escapes; inside larger data too, by
   C24_round_trip_partial. *)
Theorem C25_quotable_partial : forall k s, body_key k -> quotable s ->
  exists t, marshal (NMap [(k, NStr s)]) = Ok (Some t) /\ decode_map t = Ok (NMap [(k, NStr s)]).
Proof.
  intros k s K Q.
  assert (B : body_map [(k, NStr s)]).
  { constructor; [cbn; constructor; [intros []|constructor]|]. intros k' v [[= <- <-]|[]].
    split; [exact K|]. apply su_scalar; [constructor; exact Q|discriminate]. }
  assert (Ne : [(k, NStr s)] <> []) by discriminate.
  destruct (doc_round_trip _ Ne B) as (t & v & E1 & E2 & Sm). exists t. split; [exact E1|].
  rewrite E2. f_equal. inversion Sm as [v0 S0| | | | | | |m m' N1 N2 L1 L2]; subst; [inversion S0|]. f_equal.
  assert (L : forall k', lookup k' m' = if eq_dec k' k then Some (NStr s) else None).
  { intros k'. specialize (L1 k'). specialize (L2 k'). cbn [lookup] in L1, L2.
    destruct (eq_dec k' k); destruct (lookup k' m') as [w|] eqn:E.
    - specialize (L2 _ w eq_refl eq_refl). inversion L2; subst. reflexivity.
    - destruct L1 as [_ L1]. discriminate (L1 eq_refl).
    - destruct L1 as [L1 _]. discriminate (L1 eq_refl).
    - reflexivity. }
  assert (A : forall k' w, In (k', w) m' -> k' = k /\ w = NStr s).
  { intros k' w I. apply In_lookup in I; [|exact N2]. rewrite L in I.
    destruct (eq_dec k' k); [|discriminate]. injection I as <-. auto. }
  destruct m' as [|[k1 w1] m'].
  { specialize (L k). cbn in L. destruct (eq_dec k k); congruence. }
  destruct (A k1 w1 (or_introl eq_refl)) as [-> ->].
  destruct m' as [|[k2 w2] m']; [reflexivity|]. exfalso.
  destruct (A k2 w2 (or_intror (or_introl eq_refl))) as [-> ->].
  cbn in N2. inversion N2 as [|? ? X _]; subst. apply X. left. reflexivity.
Qed.
Print Assumptions C25_quotable_partial.

(* And for no others: a string with a quote, a backslash or a newline does not come back.  This
   is about the modelled syntax; an expression outside it could in principle evaluate to the
   string that contains it. *)
Theorem C25_exact : forall k s t, body_key k -> plain_source s -> marshal (NMap [(k, NStr s)]) = Ok (Some t) ->
  ((exists obj, decode_map t = Ok (NMap obj) /\ lookup k obj = Some (NStr s)) <->
   forall c, occurs s c -> c <> """"%char /\ c <> "\"%char /\ c <> "010"%char).
Proof.
  intros k s t K P E. rewrite <- (plain_quotable s P). rewrite marshal_string in E. split.
  - intros (obj & D & L). injection E as <-. exact (string_back k s obj (proj1 K) D L).
  - intros Q. destruct (C25_quotable_partial k s K Q) as (t' & E' & D). rewrite marshal_string in E'.
    exists [(k, NStr s)]. split; [congruence|]. cbn. destruct (eq_dec k k); congruence.
Qed.
Print Assumptions C25_exact.
Example C25_exact_sample : plain_source ("x" +++ quote +++ nl +++ "admin = " +++ quote +++ "y") /\
  marshal (NMap [("a", NStr "50%")]) = Ok (Some (nl +++ "  a = " +++ quote +++ "50%" +++ quote +++ nl)).
Proof.
  split; [|reflexivity]. split.
  - intros c (p & q & E). repeat (destruct p as [|? p]; [cbn in E; first [discriminate E|injection E as <- _; auto]|cbn in E; first [discriminate E|injection E as _ E]]).
  - intros c d (p & q & E) M. repeat (destruct p as [|? p]; [cbn in E; first [discriminate E|injection E as <- <- _; discriminate M]|cbn in E; first [discriminate E|injection E as _ E]]).
Qed.

Example C25_sample : quotable "it's 5% {of} $3 #no //comment"
  /\ through_hcl (NMap [("a", NStr "it's 5% {of} $3 #no //comment")])
     = Ok (NMap [("a", NStr "it's 5% {of} $3 #no //comment")]).
Proof. split; [cbn; intuition discriminate|vm_compute; reflexivity]. Qed.

(* C25 in full is false: strings are not escaped.  A string can bring an attribute of its own
   into the document. *)
Theorem C25_refuted : exists s t, marshal (NMap [("a", NStr s)]) = Ok (Some t)
  /\ decode_map t = Ok (NMap [("a", NStr "x"); ("admin", NStr "y")]).
Proof.
  exists ("x" +++ quote +++ nl +++ "admin = " +++ quote +++ "y").
  apply through_ok; vm_compute; [reflexivity|exact I].
Qed.
Print Assumptions C25_refuted.

(* A backslash comes back as an escape or makes the text invalid. *)
Theorem C25_backslash_refuted : exists s s' t, s <> s' /\ marshal (NMap [("a", NStr s)]) = Ok (Some t)
  /\ decode_map t = Ok (NMap [("a", NStr s')]).
Proof.
  exists "C:\new", ("C:" +++ nl +++ "ew").
  destruct (through_ok (NMap [("a", NStr "C:\new")]) (NMap [("a", NStr ("C:" +++ nl +++ "ew"))])) as (t & E).
  - vm_compute. reflexivity.
  - vm_compute. exact I.
  - exists t. split; [discriminate|exact E].
Qed.
Print Assumptions C25_backslash_refuted.

(* A string with a newline makes the text invalid. *)
Theorem C25_newline_refuted : exists s t, marshal (NMap [("a", NStr s)]) = Ok (Some t)
  /\ exists e, decode_map t = Err e.
Proof.
  exists ("x" +++ nl +++ "y"). eexists. split; [vm_compute; reflexivity|]. eexists. vm_compute. reflexivity.
Qed.
Print Assumptions C25_newline_refuted.

(* ----- C26: list elements ----- *)

(* C26 in full: every list of scalars and nulls comes back element for element. *)
Definition C26_full : Prop := forall k l, body_key k -> (forall v, In v l -> scalar v \/ v = NNil) ->
  exists t obj l', marshal (NMap [(k, NList l)]) = Ok (Some t) /\ decode_map t = Ok (NMap obj)
    /\ lookup k obj = Some (NList l') /\ Forall2 same l l'.

(* It holds for lists without zeros and nulls; those come back as empty lists. *)
Theorem C26_list_partial : forall k l, body_key k -> (forall v, In v l -> scalar v \/ v = NNil) ->
  exists t obj u, marshal (NMap [(k, NList l)]) = Ok (Some t) /\ decode_map t = Ok (NMap obj)
    /\ lookup k obj = Some u
    /\ ((l = [] /\ u = NNilList) \/ exists l', u = NList l' /\ Forall2 element_back l l').
Proof. exact list_back. Qed.
Print Assumptions C26_list_partial.

Example C26_sample : through_hcl (NMap [("a", NList [NInt 7; NInt 0; NStr "x"; NStr ""; NBool true; NBool false; NNil])])
  = Ok (NMap [("a", NList [NInt 7; NNilList; NStr "x"; NNilList; NBool true; NNilList; NNilList])]).
Proof. vm_compute. reflexivity. Qed.

Theorem C26_refuted : exists l t obj l', (forall v, In v l -> scalar v)
  /\ marshal (NMap [("a", NList l)]) = Ok (Some t) /\ decode_map t = Ok (NMap obj)
  /\ lookup "a" obj = Some (NList l') /\ ~ Forall2 same l l'.
Proof.
  exists [NInt 0; NInt 1].
  destruct (through_ok (NMap [("a", NList [NInt 0; NInt 1])]) (NMap [("a", NList [NNilList; NInt 1])])) as (t & E1 & E2).
  - vm_compute. reflexivity.
  - vm_compute. exact I.
  - exists t. do 2 eexists. split; [intros v [<-|[<-|[]]]; sc|].
    split; [exact E1|]. split; [exact E2|]. split; [reflexivity|].
    intros F. inversion F as [|x y ? ? S _]; subst. inversion S.
Qed.
Print Assumptions C26_refuted.

(* ----- C27: the text is valid ----- *)

(* C27 in full: the text made from JSON-like data parses. *)
Definition C27_full : Prop := forall m t, json (NMap m) -> marshal (NMap m) = Ok (Some t) ->
  exists its, parse_config t = Ok its.

(* It holds for the supported data. *)
Theorem C27_supported_partial : forall m t, body_map m -> marshal (NMap m) = Ok (Some t) ->
  exists its, parse_config t = Ok its /\ hcl_document t its.
Proof.
  intros m t B E. enough (H : exists its, parse_config t = Ok its) by (destruct H as (its & H); exists its; split; [exact H|apply document_iff; exact H]).
  revert t B E.
  intros t B E. destruct m as [|kv m].
  - vm_compute in E. injection E as <-. exists []. vm_compute. reflexivity.
  - assert (Ne : kv :: m <> []) by discriminate.
    destruct (doc_lines _ Ne B) as (arr & its & E1 & E2). rewrite E1 in E. injection E as <-.
    exists its. exact E2.
Qed.
Print Assumptions C27_supported_partial.

(* C27 in full is false: inside a list element, nested maps are written as blocks. *)
Theorem C27_refuted : exists m t e, json (NMap m) /\ marshal (NMap m) = Ok (Some t) /\ parse_config t = Err e.
Proof.
  set (m := [("l", NList [NMap [("a", NMap [("b", NMap [])])]])]).
  exists m. destruct (marshal (NMap m)) as [[t|]| |] eqn:E; try (vm_compute in E; discriminate).
  exists t. eexists. split; [|split; [reflexivity|]].
  - apply js_map; [cbn; repeat constructor; cbn; intuition|]. intros k v [[= <- <-]|[]].
    split; [split; reflexivity|]. apply js_list. intros v [<-|[]].
    apply js_map; [cbn; repeat constructor; cbn; intuition|]. intros k v [[= <- <-]|[]].
    split; [split; reflexivity|].
    apply js_map; [cbn; repeat constructor; cbn; intuition|]. intros k v [[= <- <-]|[]].
    split; [split; reflexivity|]. apply js_map; [constructor|intros k v []].
  - vm_compute in E. injection E as <-. vm_compute. reflexivity.
Qed.
Print Assumptions C27_refuted.

(* Whether the text is valid can depend on the iteration order of a map: the word "for" after
   an opening brace starts a for expression. *)
Theorem C27_order_refuted : exists m m' t t' its e, json (NMap m) /\ Permutation m m'
  /\ marshal (NMap [("l", NList [NMap m])]) = Ok (Some t) /\ parse_config t = Ok its
  /\ marshal (NMap [("l", NList [NMap m'])]) = Ok (Some t') /\ parse_config t' = Err e.
Proof.
  exists [("a", NInt 1); ("for", NInt 2)], [("for", NInt 2); ("a", NInt 1)].
  do 4 eexists. split; [|split; [constructor|]].
  - apply js_map; [cbn; repeat constructor; cbn; intuition discriminate|].
    intros k v [[= <- <-]|[[= <- <-]|[]]]; (split; [split; reflexivity|apply js_scalar; sc]).
  - split; [cbv; reflexivity|]. split; [vm_compute; reflexivity|]. split; [cbv; reflexivity|vm_compute; reflexivity].
Qed.
Print Assumptions C27_order_refuted.

(* A nil slice in a body has no text at all. *)
Theorem C27_nil_refuted : exists t e, marshal (NMap [("a", NNilList)]) = Ok (Some t) /\ parse_config t = Err e.
Proof. do 2 eexists. split; [cbv; reflexivity|vm_compute; reflexivity]. Qed.
Print Assumptions C27_nil_refuted.

(* ----- C28: decoding bodies ----- *)

(* A decoded document has the value of its body (or of the object it consists of): one entry
   per name; an attribute gives its value, unlabelled blocks a map or a list of maps, blocks
   with one and two labels one and two levels of maps, the last block with the same labels
   winning; blocks with more labels hide blocks with fewer and attributes. *)
Theorem C28_decode : forall s v, decode_map s = Ok v ->
  (exists its, parse_config s = Ok its /\ body_value its v)
  \/ (object_text s /\ exists its m, parse_config ("x = " +++ s) = Ok its
        /\ first_expr its = Some (EObj m) /\ expr_value (EObj m) v).
Proof. exact document_sound. Qed.
Print Assumptions C28_decode.

(* A list at the top: every element of the tuple is there, in order. *)
Theorem C28_decode_slice : forall s v, decode_slice s = Ok v ->
  exists its l, parse_config ("x = " +++ s) = Ok its /\ first_expr its = Some (ETuple l)
    /\ ((l = [] /\ v = NNilList) \/ exists l', v = NList l' /\ Forall2 expr_value l l').
Proof.
  intros s v H. unfold decode_slice in H. apply bindr_Ok in H. destruct H as (its & Hi & H).
  destruct (first_expr its) as [e|] eqn:F; [|discriminate]. destruct e as [| | | | | | |l|]; try discriminate.
  exists its, l. split; [exact Hi|]. split; [exact F|]. apply expr_sound in H.
  inversion H as [| | | | | | |l0 l' _ Q|]; subst; [left; auto|right; exists l'; auto].
Qed.
Print Assumptions C28_decode_slice.

Example C28_slice_sample : (do t <- marshal (NList [NInt 7; NStr "x"; NBool true]);
    match t with Some t => decode_slice t | None => Err "no text" end)
  = Ok (NList [NInt 7; NStr "x"; NBool true]).
Proof. vm_compute. reflexivity. Qed.

(* The texts that are parsed, and what they are parsed as, are those of a grammar of HCL. *)
Theorem C28_text : forall s its, parse_config s = Ok its <-> hcl_document s its.
Proof. exact document_iff. Qed.
Print Assumptions C28_text.

(* So a text with at least one item, whose expressions evaluate and whose blocks have at most
   two labels, is decoded to the value of its body; one without items is an empty map, but a
   panic when it is empty or blank. *)
Theorem C28_document : forall s its, hcl_document s its ->
  (its <> [] -> (forall i, In i its -> good_item i) -> exists v, decode_map s = Ok v /\ body_value its v)
  /\ (its = [] -> (white s -> exists m, decode_map s = Panic m) /\ (~ white s -> decode_map s = Ok (NMap []))).
Proof.
  intros s its D. split.
  - intros N G. rewrite (document_decoded s its D N). destruct (decode_complete its G) as (v & E). exists v. split; [exact E|].
    apply decode_sound; [exact (parse_distinct s its (proj2 (document_iff s its) D))|exact E].
  - intros ->. apply empty_document. exact D.
Qed.
Print Assumptions C28_document.

Example C28_text_sample : hcl_document ("a = -1.50" +++ nl +++ "b l ""m"" {}") [IAttr "a" (EDec (-150) 2); IBlock "b" ["l"; "m"] []]
  /\ hcl_document ("# b = 2" +++ nl +++ "a = /* * */ 1 // c = 3" +++ nl +++ "/* d = 4" +++ nl +++ "*/") [IAttr "a" (ENum 1)]
  /\ hcl_document ("b l { c = [1," +++ nl +++ "2] }" +++ nl) [IBlock "b" ["l"] [IAttr "c" (ETuple [ENum 1; ENum 2])]]
  /\ ~ (exists its, hcl_document ("b { c = 1" +++ nl +++ "}") its) /\ ~ (exists its, hcl_document "b { c = 1 d = 2 }" its)
  /\ ~ (exists its, hcl_document "b { c {} }" its) /\ ~ (exists its, hcl_document ("b { }}") its)
  /\ ~ (exists its, hcl_document ("a = 1 /* b" +++ nl) its)
  /\ ~ (exists its, hcl_document ("a = 1" +++ nl +++ "a = 2" +++ nl) its)
  /\ ~ (exists its, hcl_document "a = ""${x}""" its) /\ ~ (exists its, hcl_document "a = 1 b = 2" its).
Proof.
  do 3 (split; [apply C28_text; vm_compute; reflexivity|]).
  repeat split; intros (its & H); apply C28_text in H; vm_compute in H; discriminate H.
Qed.

(* Bodies whose expressions evaluate, with at most two labels on each block, are decoded. *)
Theorem C28_complete : forall its, (forall i, In i its -> good_item i) -> exists v, decode_body its = Ok v.
Proof. exact decode_complete. Qed.
Print Assumptions C28_complete.

(* More than two labels are an error. *)
Theorem C28_too_many_labels : forall its t ls b, In (IBlock t ls b) its -> (3 <= List.length ls)%nat ->
  forall v, decode_body its <> Ok v.
Proof. exact decode_too_many. Qed.
Print Assumptions C28_too_many_labels.

(* C28 in full: nothing in a body is lost. *)
Definition C28_full : Prop := forall s its obj, parse_config s = Ok its -> decode_body its = Ok (NMap obj) ->
  forall i, In i its -> found obj i.

(* It holds when no name is used in two ways and no labels are repeated. *)
Theorem C28_nothing_lost_partial : forall s its obj, parse_config s = Ok its -> uniform its ->
  decode_body its = Ok (NMap obj) -> forall i, In i its -> found obj i.
Proof.
  intros s its obj P U D. apply uniform_found; [exact U|].
  apply decode_sound; [exact (parse_distinct s its P)|exact D].
Qed.
Print Assumptions C28_nothing_lost_partial.

Definition doc : string :=
  "a = 1" +++ nl +++ "b {" +++ nl +++ "x = true" +++ nl +++ "}" +++ nl
  +++ "b {" +++ nl +++ "}" +++ nl +++ "c ""l"" {" +++ nl +++ "y = [1, ""z""]" +++ nl +++ "}" +++ nl
  +++ "c m {" +++ nl +++ "}" +++ nl +++ "d ""p"" ""q"" {" +++ nl +++ "w = {k = null}" +++ nl +++ "}" +++ nl.
Example C28_sample : decode_map doc = Ok (NMap
  [("a", NInt 1); ("b", NList [NMap [("x", NBool true)]; NMap []]);
   ("c", NMap [("l", NMap [("y", NList [NInt 1; NStr "z"])]); ("m", NMap [])]);
   ("d", NMap [("p", NMap [("q", NMap [("w", NMap [("k", NNil)])])])])]).
Proof. vm_compute. reflexivity. Qed.

(* C28 in full is false: a block with two labels hides one with one label, and a block hides
   the attribute of the same name. *)
Definition hiding : string :=
  "a = 1" +++ nl +++ "a {" +++ nl +++ "x = 2" +++ nl +++ "}" +++ nl
  +++ "b ""l"" {" +++ nl +++ "x = 3" +++ nl +++ "}" +++ nl
  +++ "b ""l"" ""m"" {" +++ nl +++ "x = 4" +++ nl +++ "}" +++ nl.
Theorem C28_refuted : exists s its obj, parse_config s = Ok its /\ decode_body its = Ok (NMap obj)
  /\ (exists i, In i its /\ ~ found obj i)
  /\ lookup "a" obj = Some (NMap [("x", NInt 2)])
  /\ lookup "b" obj = Some (NMap [("l", NMap [("m", NMap [("x", NInt 4)])])]).
Proof.
  exists hiding. do 2 eexists. split; [vm_compute; reflexivity|]. split; [vm_compute; reflexivity|].
  split; [|split; reflexivity].
  eexists. split; [left; reflexivity|]. intros (v & L & V). vm_compute in L. injection L as <-. inversion V;
    match goal with X : native_int _ _ |- _ => destruct X as [[X _]|[X _]]; discriminate X end.
Qed.
Print Assumptions C28_refuted.
