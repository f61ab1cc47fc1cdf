(* Which cty values become native data. *)

From Verif Require Import Base CtyModel CtySpec CtyProofs CtyProofs2 FuncModel FuncSpec FuncProofs LitModel PropsLit NativeModel.

(* ----- specification ----- *)

(* Lists, sets, maps, tuples and objects that are known and not null. *)
Inductive holds_elements : shape -> Prop :=
| he_list t : holds_elements (SList t)
| he_set t : holds_elements (SSet t)
| he_map t : holds_elements (SMap t)
| he_tuple : holds_elements STuple
| he_obj : holds_elements SObj.

(* Nothing the conversion looks at is unknown or marked: the inside of a null value and the marks of
   a null value do not count, nor does an unknown value of a type that has one value only. *)
Inductive clear : value -> Prop :=
| cl_null ms t l : clear (Val ms (SNull t) l)
| cl_str s l : clear (Val [] (SStr s) l)
| cl_num n l : clear (Val [] (SNum n) l)
| cl_bool b l : clear (Val [] (SBool b) l)
| cl_coll s l : holds_elements s -> (forall k x, In (k, x) l -> clear x) -> clear (Val [] s l)
| cl_single t p l : t = Ty KObj [] \/ t = Ty KTuple [] -> clear (Val [] (SUnknown t p) l).

(* The numbers in sight. *)
Inductive number_in : number -> value -> Prop :=
| ni_self ms n l : number_in n (Val ms (SNum n) l)
| ni_elem ms s l k x n : holds_elements s -> In (k, x) l -> number_in n x -> number_in n (Val ms s l).

(* The values of CtyModel.v. *)
Inductive known_as : value -> cval -> Prop :=
| ka_null ms t l : known_as (Val ms (SNull t) l) CNull
| ka_str s l : known_as (Val [] (SStr s) l) (CStr s)
| ka_bool b l : known_as (Val [] (SBool b) l) (CBool b)
| ka_num p d l : known_as (Val [] (SNum (Fin p d)) l) (CNum d)
| ka_inf l : known_as (Val [] (SNum (Inf false)) l) CInf
| ka_obj s l m : s = SObj \/ (exists t, s = SMap t) ->
    Forall2 (fun a b => fst a = fst b /\ known_as (snd a) (snd b)) l m -> known_as (Val [] s l) (CObj m)
| ka_tup s l m : s = STuple \/ (exists t, s = SList t \/ s = SSet t) ->
    Forall2 (fun a b => known_as (snd a) b) l m -> known_as (Val [] s l) (CTup m).

(* The loop over a Go map meets every entry once. *)
Definition perm (pick : list (string * result native) -> list (string * result native)) : Prop := forall l, Permutation l (pick l).
(* The same native data, but for the order of the entries of a map, which Go does not keep. *)
Definition same_entries (n n' : native) : Prop :=
  n = n' \/ exists m m', n = NMap m /\ n' = NMap m' /\ Permutation m m'.

(* ----- proofs ----- *)

Lemma collect_Ok : forall l, (exists u, collect l = Ok u) <-> (forall k r, In (k, r) l -> exists x, r = Ok x).
Proof.
  induction l as [|[k r] l IH]; cbn [collect].
  - split; [intros _ ? ? []|eauto].
  - split.
    + intros (u & H) k' r' [E|J].
      * injection E as <- <-. destruct r; cbn in H; try discriminate. eauto.
      * destruct r as [x|m|p]; cbn [bindr] in H; try discriminate. destruct (collect l) as [w|m|p]; cbn in H; try discriminate.
        apply (proj1 IH (ex_intro _ w eq_refl) k' r' J).
    + intro H. destruct (H k r (or_introl eq_refl)) as (x & ->). cbn [bindr].
      destruct (proj2 IH) as (u & ->); [intros; eapply H; right; eassumption|]. cbn. eauto.
Qed.
Lemma collect_Panic : forall l p, collect l = Panic p -> exists k, In (k, Panic p) l.
Proof.
  induction l as [|[k r] l IH]; cbn [collect]; intros p H; [discriminate|].
  destruct r as [x|m|q]; cbn [bindr] in H; try discriminate.
  - destruct (collect l) as [w|m|q] eqn:E; cbn in H; try discriminate. injection H as ->.
    destruct (IH p eq_refl) as (k' & J). exists k'. right. exact J.
  - injection H as ->. exists k. left. reflexivity.
Qed.
Lemma coll_Ok : forall l, ((exists n, map_native l = Ok n) <-> (exists u, collect l = Ok u)) /\ ((exists n, list_native l = Ok n) <-> (exists u, collect l = Ok u)).
Proof.
  intro l. unfold map_native, list_native. destruct (collect l); cbn [bindr]; repeat split; intros (n & H); try discriminate; eauto.
Qed.
Lemma coll_Panic : forall l p, map_native l = Panic p \/ list_native l = Panic p -> collect l = Panic p.
Proof.
  intros l p [H|H]; unfold map_native, list_native in H; destruct (collect l); cbn [bindr] in H; try discriminate; injection H as ->; reflexivity.
Qed.
Lemma number_no_panic : forall n p, number_to_native n <> Panic p.
Proof.
  intros [pr d|[]] p; cbn; try discriminate. unfold cty_number_to_native, from_int, from_float32, from_float64.
  destruct (exact_or_above (snd (big_int64 d))); [destruct (big_int64 d) as [z []]; discriminate|].
  destruct (exact_or_above (snd (big_int d))); [destruct (big_int64 d) as [z []]; discriminate|].
  destruct (exact_or_above (float_accuracy float32 d)); destruct (round_to float64 d); discriminate.
Qed.
Lemma elems_Ok : forall pick (l : list (string * value)) rs, perm pick ->
  rs = map (fun kv => (fst kv, value_to_native pick (snd kv))) l ->
  ((exists n, map_native (pick rs) = Ok n) <-> (forall k x, In (k, x) l -> exists n, value_to_native pick x = Ok n)) /\
  ((exists n, list_native rs = Ok n) <-> (forall k x, In (k, x) l -> exists n, value_to_native pick x = Ok n)).
Proof.
  intros pick l rs P ->. set (rs := map _ l).
  assert (A : (forall k r, In (k, r) rs -> exists x, r = Ok x) <-> (forall k x, In (k, x) l -> exists n, value_to_native pick x = Ok n)).
  { unfold rs. split.
    - intros H k x J. apply (H k). apply in_map_iff. exists (k, x). auto.
    - intros H k r J. apply in_map_iff in J. destruct J as ([k' x] & E & J). cbn in E. injection E as <- <-. eauto. }
  split.
  - rewrite (proj1 (coll_Ok _)), collect_Ok, <- A. split; intros H k r J; apply (H k).
    + eapply Permutation_in; [apply P|exact J].
    + eapply Permutation_in; [symmetry; apply P|exact J].
  - rewrite (proj2 (coll_Ok _)), collect_Ok, <- A. reflexivity.
Qed.
Lemma elems_Panic : forall pick (l : list (string * value)) rs p, perm pick ->
  rs = map (fun kv => (fst kv, value_to_native pick (snd kv))) l ->
  map_native (pick rs) = Panic p \/ list_native rs = Panic p -> exists k x, In (k, x) l /\ value_to_native pick x = Panic p.
Proof.
  intros pick l rs p P -> H.
  assert (J : exists k, In (k, Panic p) (map (fun kv => (fst kv, value_to_native pick (snd kv))) l)).
  { destruct H as [H|H].
    - destruct (collect_Panic _ p (coll_Panic _ p (or_introl H))) as (k & J). exists k. eapply Permutation_in; [symmetry; apply P|exact J].
    - exact (collect_Panic _ p (coll_Panic _ p (or_intror H))). }
  destruct J as (k & J). apply in_map_iff in J. destruct J as ([k' x] & E & J). cbn in E. exists k', x. split; [exact J|congruence].
Qed.
Lemma clear_elem : forall ms s l k x, clear (Val ms s l) -> holds_elements s -> In (k, x) l -> clear x.
Proof. intros ms s l k x C S J. inversion C; subst; try (inversion S; fail); eauto. Qed.

(* ----- C102: what becomes native data ----- *)

(* A value is converted exactly if nothing in sight is unknown or marked and its numbers are
   converted. *)
Theorem C102_ok : forall pick v, perm pick ->
  (exists n, value_to_native pick v = Ok n) <->
  clear v /\ (forall x, number_in x v -> exists n, value_to_native pick (num_val x) = Ok n).
Proof.
  intros pick v P. induction v as [ms s l IH] using value_ind'.
  assert (Coll : holds_elements s ->
    (ms = [] /\ (forall k x, In (k, x) l -> exists n, value_to_native pick x = Ok n)) <->
    clear (Val ms s l) /\ (forall x, number_in x (Val ms s l) -> exists n, value_to_native pick (num_val x) = Ok n)).
  { intro S. split.
    - intros (-> & H). split.
      + apply cl_coll; [exact S|]. intros k x J. apply (IH k x J), (H k x J).
      + intros y Y. inversion Y as [|? ? ? k x ? _ J Y']; subst; [inversion S|].
        apply (proj1 (IH k x J) (H k x J)). exact Y'.
    - intros (C & H). split.
      + inversion C; subst; try reflexivity. inversion S.
      + intros k x J. apply (IH k x J). split; [eapply clear_elem; eauto|]. intros y Y. apply H. eapply ni_elem; eauto. }
  assert (Marked : forall r : result native, (exists n, (match ms with [] => r | _ => Panic "value is marked, so must be unmarked first" end) = Ok n) <-> ms = [] /\ exists n, r = Ok n).
  { intro r. destruct ms; split; intros H; try tauto; [destruct H as (n & H); discriminate|destruct H as (H & _); discriminate]. }
  assert (Leaf : ~ holds_elements s -> (forall n, s <> SNum n) -> forall y, ~ number_in y (Val ms s l)).
  { intros S N y Y. inversion Y; subst; [eapply N; reflexivity|contradiction]. }
  cbn [value_to_native].
  destruct s as [t p|t|x|n|b|t|t|t| |].
  - assert (Nc : clear (Val ms (SUnknown t p) l) <-> ms = [] /\ (t = Ty KObj [] \/ t = Ty KTuple [])).
    { split; [intro C; inversion C as [| | | |? ? S| ]; subst; [inversion S|auto]|intros (-> & H); constructor; exact H]. }
    assert (L : forall y, ~ number_in y (Val ms (SUnknown t p) l)) by (apply Leaf; [intro S; inversion S|discriminate]).
    split.
    + intro H. split; [|intros y Y; destruct (L y Y)]. apply Nc. destruct t as [k a]. cbn [kind_of ty_args] in H.
      destruct k; try (destruct H as (n & H); discriminate H); apply Marked in H; destruct H as (-> & n & H); destruct a; try discriminate H; auto.
    + intros (C & _). apply Nc in C. destruct C as (-> & [-> | ->]); cbn; eauto.
  - split; [intros _|eauto]. split; [constructor|]. intros y Y. destruct (Leaf ltac:(intro S; inversion S) ltac:(discriminate) y Y).
  - rewrite Marked. split.
    + intros (-> & _). split; [constructor|]. intros y Y. destruct (Leaf ltac:(intro S; inversion S) ltac:(discriminate) y Y).
    + intros (C & _). inversion C as [| | | |? ? S| ]; subst; [eauto|inversion S].
  - rewrite Marked. split.
    + intros (-> & H). split; [constructor|]. intros y Y. inversion Y as [|? ? ? k x ? S]; subst; [exact H|inversion S].
    + intros (C & H). specialize (H n (ni_self ms n l)). split; [|exact H]. inversion C as [| | | |? ? S| ]; subst; [reflexivity|inversion S].
  - rewrite Marked. split.
    + intros (-> & _). split; [constructor|]. intros y Y. destruct (Leaf ltac:(intro S; inversion S) ltac:(discriminate) y Y).
    + intros (C & _). inversion C as [| | | |? ? S| ]; subst; [eauto|inversion S].
  - rewrite Marked, (proj2 (elems_Ok pick l _ P eq_refl)). apply Coll. constructor.
  - rewrite Marked, (proj2 (elems_Ok pick l _ P eq_refl)). apply Coll. constructor.
  - rewrite Marked, (proj1 (elems_Ok pick l _ P eq_refl)). apply Coll. constructor.
  - rewrite Marked, (proj2 (elems_Ok pick l _ P eq_refl)). apply Coll. constructor.
  - rewrite Marked, (proj1 (elems_Ok pick l _ P eq_refl)). apply Coll. constructor.
Qed.
Print Assumptions C102_ok.

(* A value in which nothing in sight is unknown or marked never panics. *)
Theorem C102_no_panic : forall pick v p, perm pick -> clear v -> value_to_native pick v <> Panic p.
Proof.
  intros pick v p P. induction v as [ms s l IH] using value_ind'. intros C H. cbn [value_to_native] in H.
  assert (E : forall k x, holds_elements s -> In (k, x) l -> value_to_native pick x <> Panic p) by (intros k x S J; apply (IH k x J); eapply clear_elem; eauto).
  inversion C as [| | | |s' l' S F| t q l' T]; subst; cbn in H; try discriminate H.
  - exact (number_no_panic n p H).
  - inversion S; subst; destruct (elems_Panic pick l _ p P eq_refl) as (k & x & J & X); eauto; eapply E; eauto.
  - destruct T as [-> | ->]; discriminate H.
Qed.
Print Assumptions C102_no_panic.

(* So it is false that every value is converted or refused: a sensitive text panics, as does an
   unknown number. *)
Theorem C102_refuted : forall pick,
  (exists p, value_to_native pick (Val [sensitive_mark] (SStr "secret") []) = Panic p) /\
  (exists p, value_to_native pick (unknown numt) = Panic p).
Proof. intro pick. split; eexists; reflexivity. Qed.
Print Assumptions C102_refuted.

(* Every marked value that is known and not null panics. *)
Theorem C102_marked : forall pick v, marks_of v <> [] -> is_known v = true -> is_null v = false -> exists p, value_to_native pick v = Panic p.
Proof.
  intros pick [ms s l] M K N. cbn in M. destruct ms as [|a ms]; [contradiction|]. destruct s; try discriminate K; try discriminate N; eexists; reflexivity.
Qed.
Print Assumptions C102_marked.
(* Of the unknown values texts, booleans and those without type are refused, and those whose type
   has one value are that value; all others panic. *)
Theorem C102_unknown : forall pick t,
  (exists p, value_to_native pick (unknown t) = Panic p) <->
  kind_of t <> KStr /\ kind_of t <> KBool /\ kind_of t <> KDyn /\ ~ (ty_args t = [] /\ (kind_of t = KObj \/ kind_of t = KTuple)).
Proof.
  intros pick [k a]. cbn [kind_of ty_args]. split.
  - intros (p & H). repeat split; try (intros ->; discriminate H). intros (-> & [-> | ->]); discriminate H.
  - intros (A & B & C & D). destruct k; try congruence; try (eexists; reflexivity);
      (destruct a; [exfalso; apply D; auto|eexists; reflexivity]).
Qed.
Print Assumptions C102_unknown.

Lemma map_same : forall pick l m, Forall2 (fun a b => fst a = fst b /\ value_to_native pick (snd a) = cty_to_native (snd b)) l m ->
  map_native (map (fun kv => (fst kv, value_to_native pick (snd kv))) l) = cty_to_native (CObj m).
Proof.
  intros pick l m F. unfold map_native. cbn [cty_to_native]. f_equal.
  induction F as [|[k x] [k' c] l m [E H] F IH]; [reflexivity|]. cbn in E, H. subst k'. cbn [map fst snd collect].
  rewrite H. destruct (cty_to_native c); cbn [bindr]; [|reflexivity|reflexivity]. rewrite IH. reflexivity.
Qed.
Lemma list_same : forall pick l m, Forall2 (fun a b => value_to_native pick (snd a) = cty_to_native b) l m ->
  list_native (map (fun kv => (fst kv, value_to_native pick (snd kv))) l) = cty_to_native (CTup m).
Proof.
  intros pick l m F. unfold list_native. cbn [cty_to_native].
  set (go := fix go l := match l with [] => Ok [] | v :: l' => do x <- cty_to_native v; do r <- go l'; Ok (match x with NNil => r | _ => x :: r end) end).
  assert (G : go m = do u <- collect (map (fun kv => (fst kv, value_to_native pick (snd kv))) l); Ok (map snd u)).
  { induction F as [|[k x] c l m H F IH]; [reflexivity|]. cbn in H. cbn [map fst snd collect]. cbn. fold go.
    rewrite H. destruct (cty_to_native c) as [n|e|p]; cbn [bindr]; [|reflexivity|reflexivity]. rewrite IH.
    destruct (collect _) as [u|e|p]; cbn [bindr]; try reflexivity. destruct n; reflexivity. }
  rewrite G. destruct (collect _) as [u|e|p]; cbn [bindr]; try reflexivity. destruct u; reflexivity.
Qed.
Lemma Forall2_strong : forall (A B : Type) (R S : A -> B -> Prop) l m, Forall2 R l m -> (forall a b, In a l -> R a b -> S a b) -> Forall2 S l m.
Proof.
  intros A B R S l m F H. induction F; constructor; [apply H; [left; reflexivity|assumption]|apply IHF; intros; apply H; [right|]; assumption].
Qed.

(* On known values without marks this is the conversion of CtyModel.v, of which C34 and C35 tell. *)
Theorem C102_same : forall v c, known_as v c -> value_to_native (fun l => l) v = cty_to_native c.
Proof.
  induction v as [ms s l IH] using value_ind'. intros c K. inversion K as [| | | | |s' l' m S F|s' l' m S F]; subst; try reflexivity.
  - transitivity (map_native (map (fun kv => (fst kv, value_to_native (fun l => l) (snd kv))) l)); [destruct S as [-> |(t & ->)]; reflexivity|].
    apply map_same. apply (Forall2_strong _ _ _ _ _ _ F). intros [k x] [k' y] J [E H]. split; [exact E|]. exact (IH k x J y H).
  - transitivity (list_native (map (fun kv => (fst kv, value_to_native (fun l => l) (snd kv))) l)); [destruct S as [-> |(t & [-> | ->])]; reflexivity|].
    apply list_same. apply (Forall2_strong _ _ _ _ _ _ F). intros [k x] y J H. exact (IH k x J y H).
Qed.
Print Assumptions C102_same.

Lemma collect_perm : forall l l', Permutation l l' -> forall u, collect l = Ok u -> exists u', collect l' = Ok u' /\ Permutation u u'.
Proof.
  induction 1 as [|[k r] l l' P IH|[k r] [k' r'] l|l l' l'' P IH Q IH2]; intros u H.
  - exists u. auto.
  - cbn [collect] in *. destruct r as [x|e|p]; cbn [bindr] in *; try discriminate. destruct (collect l) as [w|e|p]; cbn [bindr] in *; try discriminate.
    destruct (IH w eq_refl) as (w' & -> & Pw). cbn [bindr]. eexists. split; [reflexivity|]. injection H as <-. destruct x; try (apply perm_skip); exact Pw.
  - cbn [collect] in *. destruct r' as [x'|e|p]; cbn [bindr] in *; try discriminate. destruct r as [x|e|p]; cbn [bindr] in *; try discriminate.
    destruct (collect l) as [w|e|p]; cbn [bindr] in *; try discriminate. eexists. split; [reflexivity|]. injection H as <-.
    destruct x, x'; auto; apply perm_swap.
  - destruct (IH u H) as (u' & E & P1). destruct (IH2 u' E) as (u'' & E2 & P2). exists u''. split; [exact E2|]. etransitivity; eassumption.
Qed.
Lemma same_perm : forall (l l' : list (string * value)), NoDup (keys l) -> NoDup (keys l') -> (forall k, lookup k l' = lookup k l) -> Permutation l l'.
Proof.
  intros l l' N N' L. assert (Nl : forall m : list (string * value), NoDup (keys m) -> NoDup m) by (intros m H; eapply NoDup_map_inv; exact H).
  apply NoDup_Permutation; [apply Nl, N|apply Nl, N'|]. intros [k x]. split; intro J.
  - apply lookup_In. rewrite L. apply In_lookup; assumption.
  - apply lookup_In. rewrite <- L. apply In_lookup; assumption.
Qed.
Lemma in_sight_dec : forall v, in_sight v \/ ~ in_sight v.
Proof.
  intros [ms s l]. unfold in_sight. cbn [marks_of]. destruct ms; [|right; intros (H & _); discriminate].
  destruct (is_known _); [|right; intros (_ & H & _); discriminate]. destruct (is_null _); [right; intros (_ & _ & H); discriminate|auto].
Qed.
Lemma list_native_snd : forall l l', map snd l = map snd l' -> list_native l = list_native l'.
Proof.
  intros l l' E. unfold list_native.
  assert (C : (do u <- collect l; Ok (map snd u)) = (do u <- collect l'; Ok (map snd u))).
  { revert l' E. induction l as [|[k r] l IH]; intros [|[k' r'] l'] E; try discriminate E; [reflexivity|]. cbn in E. injection E as <- E.
    cbn [collect]. destruct r as [x|m|p]; cbn [bindr]; [|reflexivity|reflexivity]. specialize (IH l' E).
    destruct (collect l), (collect l'); cbn [bindr] in *; try congruence. injection IH as IH. destruct x; cbn [map snd]; congruence. }
  destruct (collect l) as [u|m|p], (collect l') as [u'|m'|p']; cbn [bindr] in *; try congruence.
  injection C as C. destruct u, u'; try discriminate C; [reflexivity|]. rewrite C. reflexivity.
Qed.

(* The expression written back has the same native data. *)
Theorem C102_written_back : forall pick pick' cv e n, perm pick -> (forall l, Permutation l (pick' l)) -> typed cv ->
  cty_to_expression pick' cv = Ok e -> value_to_native pick cv = Ok n ->
  exists n', value_to_native pick (lit_value e) = Ok n' /\ same_entries n n'.
Proof.
  intros pick pick' cv e n P P' T E H.
  destruct (C101_value pick' cv P' T) as (e' & E' & C).
  { intro S. destruct (in_sight_dec cv) as [I|I]; [exact I|]. exfalso.
    destruct (proj2 (C101_panics pick' cv T) (conj S I)) as (p & X). congruence. }
  assert (e' = e) by congruence. subst e'. set (w := lit_value e) in *. clearbody w.
  destruct C as [v|ms t l l' F|ms t l l' N L].
  - exists n. split; [exact H|left; reflexivity].
  - exists n. split; [|left; reflexivity]. rewrite <- H. cbn [value_to_native]. destruct ms; [|discriminate H].
    apply list_native_snd. rewrite !map_map. cbn [snd]. rewrite <- (map_map snd (value_to_native pick)), <- (map_map snd (value_to_native pick)).
    f_equal. exact F.
  - assert (Nl : NoDup (keys l)) by (inversion T; assumption).
    assert (Q := same_perm l l' Nl N L). cbn [value_to_native] in H |- *. destruct ms; [|discriminate H].
    unfold map_native in *. destruct (collect (pick (map _ l))) as [u|m|p] eqn:Cu; cbn [bindr] in H; try discriminate H.
    destruct (collect_perm (pick (map (fun kv => (fst kv, value_to_native pick (snd kv))) l)) (pick (map (fun kv => (fst kv, value_to_native pick (snd kv))) l'))) with (u := u) as (u' & -> & Pu); [|exact Cu|].
    { etransitivity; [symmetry; apply P|]. etransitivity; [apply Permutation_map, Q|apply P]. }
    cbn [bindr]. eexists. split; [reflexivity|]. injection H as <-. destruct u as [|a u], u' as [|b u'].
    + left. reflexivity.
    + apply Permutation_nil_cons in Pu. destruct Pu.
    + symmetry in Pu. apply Permutation_nil_cons in Pu. destruct Pu.
    + right. eauto.
Qed.
Print Assumptions C102_written_back.

Example C102_sample :
  let m := Val [] (SMap numt) [("a", num_val (int_val 1)); ("b", Val [sensitive_mark] (SNull numt) []); ("c", num_val (int_val 2))] in
  value_to_native (fun l => l) m = Ok (NMap [("a", NInt 1); ("c", NInt 2)]) /\
  value_to_native (fun l => rev l) m = Ok (NMap [("c", NInt 2); ("a", NInt 1)]) /\
  clear m /\
  value_to_native (fun l => l) (Val [] STuple [("", unknown str); ("", unknown numt)]) = Err "value must be known" /\
  value_to_native (fun l => l) (Val [] STuple [("", str_val "x"); ("", unknown (Ty KObj []))]) = Ok (NList [NStr "x"; NNilMap]) /\
  value_to_native (fun l => l) (num_val (Inf true)) = Err "value must be a whole number" /\
  known_as m (CObj [("a", CNum (mkD 1 0)); ("b", CNull); ("c", CNum (mkD 2 0))]).
Proof.
  cbv zeta. repeat split; try reflexivity.
  - apply cl_coll; [constructor|]. intros k x [E|[E|[E|[]]]]; injection E as <- <-; constructor.
  - apply ka_obj; [right; eauto|]. repeat constructor.
Qed.
