(* Values written back into the attributes of a document. *)

From Verif Require Import Base FuncModel FuncSpec FuncProofs LitModel.

(* ----- specification ----- *)

(* The same data: the value itself, the tuple of the elements of a list, or the object with the
   entries of a map. *)
Inductive carried : value -> value -> Prop :=
| ca_same v : carried v v
| ca_list ms t l l' : map snd l' = map snd l -> carried (Val ms (SList t) l) (Val ms STuple l')
| ca_map ms t l l' : NoDup (keys l') -> (forall k, lookup k l' = lookup k l) -> carried (Val ms (SMap t) l) (Val ms SObj l').
(* Lists and maps of texts, numbers or booleans. *)
Definition simple_collection (t : ty) : Prop :=
  exists e, (e = str \/ e = numt \/ e = boolt) /\ (t = list_of e \/ t = map_of e).
(* Known, not null, and without marks of its own. *)
Definition in_sight (v : value) : Prop := marks_of v = [] /\ is_known v = true /\ is_null v = false.

(* ----- proofs ----- *)

Lemma one_of_In : forall t l, one_of t l = true <-> In t l.
Proof.
  intros t l. unfold one_of. rewrite existsb_exists. split.
  - intros (x & J & E). apply ty_eqb_eq in E. subst. exact J.
  - intro J. exists t. split; [exact J|apply ty_eqb_eq; reflexivity].
Qed.
Lemma built : forall l m, NoDup (keys l) -> (forall k, In k (keys l) -> lookup k m = None) -> NoDup (keys m) ->
  let r := fold_left (fun m (kv : string * value) => insert (fst kv) (snd kv) m) l m in
  NoDup (keys r) /\ forall k, lookup k r = match lookup k l with Some v => Some v | None => lookup k m end.
Proof.
  induction l as [|[a x] l IH]; intros m Nd F Nm; cbn [fold_left fst snd]; [split; [exact Nm|reflexivity]|].
  cbn in Nd. inversion Nd as [|? ? Na Nd']; subst.
  destruct (IH (insert a x m) Nd') as [A B].
  - intros k J. rewrite lookup_insert_ne; [apply F; right; exact J|]. intros ->. exact (Na J).
  - apply NoDup_keys_insert. exact Nm.
  - split; [exact A|]. intro k. rewrite B. cbn [lookup]. destruct (eq_dec k a) as [->|Ne].
    + assert (L : lookup a l = None) by (apply lookup_None; exact Na). rewrite L. apply lookup_insert_eq.
    + rewrite lookup_insert_ne by exact Ne. reflexivity.
Qed.
Lemma named_snd : forall (l : list (string * value)), map snd (named (map snd l)) = map snd l.
Proof. intro l. unfold named. rewrite map_map. cbn. apply map_id. Qed.
Lemma list_shape : forall v t, typed v -> type_of v = list_of t -> is_known v = true -> is_null v = false -> exists ms l, v = Val ms (SList t) l.
Proof. intros v t T E K N. destruct T; cbn in E, K, N; try discriminate. injection E as <-. eauto. Qed.
Lemma map_shape : forall v t, typed v -> type_of v = map_of t -> is_known v = true -> is_null v = false -> exists ms l, v = Val ms (SMap t) l /\ NoDup (keys l).
Proof. intros v t T E K N. destruct T; cbn in E, K, N; try discriminate. injection E as <-. eauto. Qed.
(* The three ways of the switch. *)
Lemma ways : forall pick cv,
  (cty_to_expression pick cv = Ok (LValue cv) /\ ~ simple_collection (type_of cv)) \/
  (simple_collection (type_of cv) /\
   ((exists t, type_of cv = list_of t /\ cty_to_expression pick cv = do l <- as_values cv; Ok (LTuple (map snd l))) \/
    (exists t, type_of cv = map_of t /\ cty_to_expression pick cv = do l <- as_values cv; Ok (LObject (pick l))))).
Proof.
  intros pick cv. unfold cty_to_expression. cbv zeta.
  destruct (one_of (type_of cv) [str; numt; boolt]) eqn:A.
  { left. split; [reflexivity|]. apply one_of_In in A. intros (e & _ & [E|E]); rewrite E in A; destruct A as [A|[A|[A|[]]]]; discriminate A. }
  destruct (one_of (type_of cv) [list_of str; list_of numt; list_of boolt]) eqn:B.
  { right. apply one_of_In in B. destruct B as [B|[B|[B|[]]]]; (split; [rewrite <- B; eexists; split; [|left; reflexivity]; tauto|left; eexists; split; [symmetry; exact B|reflexivity]]). }
  destruct (one_of (type_of cv) [map_of str; map_of numt; map_of boolt]) eqn:C.
  { right. apply one_of_In in C. destruct C as [C|[C|[C|[]]]]; (split; [rewrite <- C; eexists; split; [|right; reflexivity]; tauto|right; eexists; split; [symmetry; exact C|reflexivity]]). }
  left. split; [reflexivity|]. intros (e & He & [E|E]).
  - assert (X : one_of (type_of cv) [list_of str; list_of numt; list_of boolt] = true) by (apply one_of_In; rewrite E; destruct He as [->|[->| ->]]; cbn; auto). congruence.
  - assert (X : one_of (type_of cv) [map_of str; map_of numt; map_of boolt] = true) by (apply one_of_In; rewrite E; destruct He as [->|[->| ->]]; cbn; auto). congruence.
Qed.

(* ----- C101: values written back ----- *)

(* The expression has the same data, whatever the order of the loop, unless the value is a list or
   map of scalars that is unknown, null or marked. *)
Theorem C101_value : forall pick cv, (forall l, Permutation l (pick l)) -> typed cv ->
  (simple_collection (type_of cv) -> in_sight cv) ->
  exists e, cty_to_expression pick cv = Ok e /\ carried cv (lit_value e).
Proof.
  intros pick cv P T S. destruct (ways pick cv) as [(-> & _)|(C & W)]; [eexists; split; [reflexivity|constructor]|].
  destruct (S C) as (M & K & N). destruct W as [(t & E & ->)|(t & E & ->)].
  - destruct (list_shape cv t T E K N) as (ms & l & ->). cbn in M. subst ms. cbn [as_values bindr]. eexists. split; [reflexivity|].
    apply ca_list. apply named_snd.
  - destruct (map_shape cv t T E K N) as (ms & l & -> & Nd). cbn in M. subst ms. cbn [as_values bindr]. eexists. split; [reflexivity|].
    assert (Np : NoDup (keys (pick l))) by (unfold keys in *; eapply Permutation_NoDup; [apply Permutation_map, P|exact Nd]).
    destruct (built (pick l) [] Np) as [A B]; [reflexivity|constructor|]. apply ca_map; [exact A|]. intro k. rewrite B.
    rewrite <- (lookup_perm _ _ k Nd (P l)). destruct (lookup k l); reflexivity.
Qed.
Print Assumptions C101_value.

(* Otherwise it panics, always. *)
Theorem C101_panics : forall pick cv, typed cv ->
  (exists p, cty_to_expression pick cv = Panic p) <-> simple_collection (type_of cv) /\ ~ in_sight cv.
Proof.
  intros pick cv T. destruct (ways pick cv) as [(-> & C)|(C & W)].
  - split; [intros (p & H); discriminate|tauto].
  - assert (V : (exists p, as_values cv = Panic p) <-> ~ in_sight cv).
    { assert (Sh : exists t, type_of cv = list_of t \/ type_of cv = map_of t) by (destruct W as [(t & E & _)|(t & E & _)]; eauto).
      unfold in_sight. destruct Sh as (t & Et). destruct T as [ms u p|ms u|ms s|ms n|ms b|ms u l _|ms u l _|ms u l _ _|ms l _|ms l _ _];
        destruct Et as [Et|Et]; try (cbn in Et; discriminate Et); destruct ms; cbn; (split; [intros (q & H) (H1 & H2 & H3)|intro H]);
        try discriminate; try (eexists; reflexivity); exfalso; apply H; auto. }
    destruct W as [(t & _ & ->)|(t & _ & ->)]; (destruct (as_values cv) as [l|m|p]; cbn [bindr];
      [split; [intros (q & H); discriminate|intros [_ H]; apply V in H; destruct H; discriminate]
      |split; [intros (q & H); discriminate|intros [_ H]; apply V in H; destruct H; discriminate]
      |split; [intros _; split; [exact C|apply V; eauto]|intros _; eauto]]).
Qed.
Print Assumptions C101_panics.

(* So it is false that every value is carried: a null list of texts panics.  Unmarshal notes which
   attributes are null, and passes them on as the others (dethcl/unmarshal.go:122-125). *)
Theorem C101_refuted : exists cv, typed cv /\ forall pick, exists p, cty_to_expression pick cv = Panic p.
Proof. exists (plain (SNull (list_of str))). split; [constructor|]. intro pick. eexists. reflexivity. Qed.
Print Assumptions C101_refuted.
(* The types may be others: a list becomes a tuple. *)
Theorem C101_type_refuted : exists cv, typed cv /\ forall pick, exists e,
  cty_to_expression pick cv = Ok e /\ type_of (lit_value e) <> type_of cv.
Proof.
  exists (list_val str [str_val "a"; str_val "b"]). split.
  - constructor. intros k v [E|[E|[]]]; injection E as <- <-; (split; [constructor|reflexivity]).
  - intro pick. eexists. split; [reflexivity|discriminate].
Qed.
Print Assumptions C101_type_refuted.
(* They stay for everything but lists and maps of scalars. *)
Theorem C101_type : forall pick cv e, cty_to_expression pick cv = Ok e -> ~ simple_collection (type_of cv) -> lit_value e = cv.
Proof. intros pick cv e H N. destruct (ways pick cv) as [(E & _)|(C & _)]; [rewrite E in H; injection H as <-; reflexivity|contradiction]. Qed.
Print Assumptions C101_type.

(* Done once more, on what is written back, it changes nothing. *)
Theorem C101_again : forall pick pick' cv e, cty_to_expression pick cv = Ok e ->
  exists e', cty_to_expression pick' (lit_value e) = Ok e' /\ lit_value e' = lit_value e.
Proof.
  intros pick pick' cv e H. destruct (ways pick cv) as [(E & N)|(_ & [(t & _ & E)|(t & _ & E)])]; rewrite E in H.
  - injection H as <-. cbn [lit_value]. destruct (ways pick' cv) as [(E' & _)|(C & _)]; [rewrite E'; eexists; split; reflexivity|contradiction].
  - destruct (as_values cv); try discriminate H. cbn [bindr] in H. injection H as <-. eexists. split; reflexivity.
  - destruct (as_values cv); try discriminate H. cbn [bindr] in H. injection H as <-. eexists. split; reflexivity.
Qed.
Print Assumptions C101_again.

Example C101_sample :
  let m := Val [] (SMap numt) [("a", num_val (int_val 1)); ("b", plain (SNull numt))] in
  (exists e, cty_to_expression (fun l => rev l) m = Ok e /\
    lit_value e = Val [] SObj [("b", plain (SNull numt)); ("a", num_val (int_val 1))]) /\
  (exists e, cty_to_expression (fun l => l) (list_val boolt [bool_val true]) = Ok e /\ lit_value e = Val [] STuple [("", bool_val true)]) /\
  cty_to_expression (fun l => l) (Val [] (SList (list_of str)) []) = Ok (LValue (Val [] (SList (list_of str)) [])) /\
  cty_to_expression (fun l => l) (Val ["s"] (SStr "x") []) = Ok (LValue (Val ["s"] (SStr "x") [])) /\
  cty_to_expression (fun l => l) (Val ["s"] (SList str) []) = Panic "value is marked, so must be unmarked first".
Proof. cbv zeta. repeat split; try reflexivity; eexists; split; reflexivity. Qed.
