(* Further lemmas on the fields of structs: classes are exclusive, only proper fields are
   listed, and earlier decoding does not matter. *)

From Verif Require Import Base GoType SpecModel CollectModel DetModel CtyModel HclModel TagModel
  TagSpec TagProofs StructModel StructScan StructParse StructSpec StructFields StructRun StructRef StructFuel StructResult StructBlock.
From Coq Require Import Lia.

Section Classes.
Variable E : env.

Lemma points_unique : forall t u u', points E t u -> points E t u' -> u = u'.
Proof. intros t u u' H H'. apply points_elem in H, H'. congruence. Qed.
Lemma block_not_generic : forall t, block_type E t -> generic_type E t -> False.
Proof.
  intros t B (et & H & (ms & I)). destruct B as [(fs & S)|(et' & H' & X)].
  - destruct H as [H|(kt & H)]; congruence.
  - assert (et' = et) by (destruct H as [H|(? & H)], H' as [H'|(? & H')]; congruence). subst et'.
    destruct X as [(fs & X)|(u & X)]; congruence.
Qed.

Lemma class_unique : forall nulls specs f c d, class_of E nulls specs f c -> class_of E nulls specs f d -> c = d.
Proof.
  intros nulls specs f c d H H'.
  destruct H, H'; try reflexivity;
    repeat match goal with
    | A : tag2 _ = Ok _, B : tag2 _ = Ok _ |- _ => rewrite A in B; injection B; clear B; intros; subst
    | A : points E _ _, B : points E _ _ |- _ => pose proof (points_unique _ _ _ A B); clear B; subst
    end; try contradiction; exfalso; try (eapply block_not_generic; eassumption); congruence.
Qed.

Lemma struct_dec : forall t, is_struct E t \/ ~ is_struct E t.
Proof.
  intro t. unfold is_struct. destruct (under E t) eqn:U; try (right; intros (fs & H); congruence).
  left. eauto.
Qed.
Lemma kinds_dec : forall t, block_type E t \/ ~ block_type E t.
Proof.
  intro t. unfold block_type.
  assert (X : forall et, (is_struct E et \/ is_pointer E et) \/ ~ (is_struct E et \/ is_pointer E et)).
  { intro et. unfold is_struct, is_pointer. destruct (under E et) eqn:U;
      try (right; intros [(x & H)|(x & H)]; congruence); left; eauto. }
  destruct (struct_dec t) as [S|S]; [left; left; exact S|].
  assert (Y : forall et, (has_elem E t et) -> (exists et, has_elem E t et /\ (is_struct E et \/ is_pointer E et))
     \/ ~ (exists et, has_elem E t et /\ (is_struct E et \/ is_pointer E et))).
  { intros et H. destruct (X et) as [Z|Z]; [left; eauto|right]. intros (et' & H' & Z').
    assert (et' = et) by (destruct H as [H|(? & H)], H' as [H'|(? & H')]; congruence). subst. contradiction. }
  destruct (under E t) as [| |et| |kt et| | |] eqn:U;
    try (right; intros [Z|(et' & [H|(kt' & H)] & _)]; [contradiction|congruence|congruence]).
  - destruct (Y et (or_introl U)) as [Z|Z]; [left; right; exact Z|right; tauto].
  - destruct (Y et (or_intror (ex_intro _ _ U))) as [Z|Z]; [left; right; exact Z|right; tauto].
Qed.
Lemma generic_dec : forall t, generic_type E t \/ ~ generic_type E t.
Proof.
  intro t. unfold generic_type.
  assert (Y : forall et, has_elem E t et -> (exists et, has_elem E t et /\ is_interface E et)
     \/ ~ (exists et, has_elem E t et /\ is_interface E et)).
  { intros et H. unfold is_interface. destruct (under E et) eqn:U;
      try (right; intros (et' & H' & (ms & Z)); assert (et' = et)
             by (destruct H as [H|(? & H)], H' as [H'|(? & H')]; congruence); congruence).
    left. eauto. }
  destruct (under E t) eqn:U; try (right; intros (et & [H|(kt & H)] & _); congruence).
  - exact (Y _ (or_introl U)).
  - exact (Y _ (or_intror (ex_intro _ _ U))).
Qed.

Lemma class_total : forall nulls specs f tag kind, tag2 (ftag f) = Ok (tag, kind) ->
  exists c, class_of E nulls specs f c.
Proof.
  intros nulls specs f tag kind T.
  destruct (in_dec string_dec tag nulls) as [N|N]; [eauto using class_null|].
  destruct (string_dec (to_lower kind) "label") as [L|L]; [eauto using class_label|].
  destruct (string_dec tag "-") as [->|D]; [eauto using class_dash|].
  destruct (in_dec string_dec (fname f) specs) as [S|S]; [eauto using class_spec|].
  pose proof (elem_points E (ftype f)) as P.
  destruct (string_dec tag "") as [->|X].
  - destruct (struct_dec (elem_ptr E (ftype f))); [exists Inlined; eapply class_inlined; eassumption|].
    exists Excluded. eapply class_untagged; eassumption.
  - destruct (kinds_dec (elem_ptr E (ftype f))); [exists Block; eapply class_block; eassumption|].
    destruct (generic_dec (elem_ptr E (ftype f))); [exists Generic; eapply class_generic; eassumption|].
    exists Attr. eapply class_attr; eassumption.
Qed.

Variable type_string : gtype -> string.
Variable zero : gtype -> hval.
Notation loop_fields := (loop_fields E type_string zero).

Definition listed (L : lists) (f : gfield) : Prop :=
  In f (l_labels L) \/ In f (l_new L) \/ In f (l_ori L) \/ In f (l_dec L).

Lemma listed_one : forall c g m ref f, listed (one c g m ref) f -> f = g.
Proof. intros [] g m ref f [H|[H|[H|H]]]; cbn in H; destruct H as [H|[]] || contradiction; auto. Qed.
Lemma listed_join : forall a b f, listed (join_lists a b) f -> listed a f \/ listed b f.
Proof. intros a b f [H|[H|[H|H]]]; cbn in H; apply in_app_or in H as [H|H]; unfold listed; tauto. Qed.
Lemma listed_tagged : forall g m ref f, listed (tagged_field E type_string zero g m ref) f -> f = g.
Proof.
  intros g m ref f H. unfold tagged_field in H.
  destruct (under E (elem_ptr E (ftype g))); try exact (listed_one _ _ _ _ _ H);
    destruct (elem_class E _); exact (listed_one _ _ _ _ _ H).
Qed.

(* Only exported fields that are not excluded. *)
Lemma loop_fields_sound : forall n nulls fs m ref L, loop_fields n nulls fs m ref = Ok L ->
  forall f, listed L f -> within E f fs /\ is_exported (fname f) = true /\
    exists tag kind, tag2 (ftag f) = Ok (tag, kind) /\ ~ In tag nulls /\ (tag = "-" -> is_label kind).
Proof.
  induction n as [|n IHn]; intros nulls fs; [discriminate|].
  induction fs as [|g fs IH]; intros m ref L H f F.
  - injection H as <-. destruct F as [F|[F|[F|F]]]; contradiction.
  - rewrite loop_fields_cons in H. apply bindr_Ok in H as (here & H1 & H).
    apply bindr_Ok in H as (rest & H2 & H). injection H as <-. apply listed_join in F as [F|F].
    2: { destruct (IH _ _ _ H2 f F) as (W & R). split; [|exact R]. inversion W; subst.
         - apply within_here. right. assumption.
         - eapply within_deep; [right|..]; eassumption. }
    unfold loop_field in H1. destruct (is_exported (fname g)) eqn:X; cbn [negb] in H1.
    2: { injection H1 as <-. destruct F as [F|[F|[F|F]]]; contradiction. }
    destruct (tag2 (ftag g)) as [[tag what]| |] eqn:T; cbn [bindr] in H1; try discriminate.
    destruct (grep nulls tag) eqn:G.
    { injection H1 as <-. destruct F as [F|[F|[F|F]]]; contradiction. }
    apply grep_false in G.
    destruct (String.eqb_spec (to_lower what) "label") as [LB|LB].
    { injection H1 as <-. apply (listed_one FLabel) in F as ->. split; [apply within_here; left; reflexivity|].
      split; [exact X|]. exists tag, what. auto. }
    rewrite (skipped_dash _ _ _ T) in H1. destruct (String.eqb_spec tag "-") as [D|D].
    { injection H1 as <-. destruct F as [F|[F|[F|F]]]; contradiction. }
    assert (Own : f = g -> within E f (g :: fs) /\ is_exported (fname f) = true /\
      exists tag kind, tag2 (ftag f) = Ok (tag, kind) /\ ~ In tag nulls /\ (tag = "-" -> is_label kind)).
    { intros ->. split; [apply within_here; left; reflexivity|]. split; [exact X|]. exists tag, what. tauto. }
    destruct (lookup (fname g) m).
    { injection H1 as <-. apply Own. exact (listed_one FOri _ _ _ _ F). }
    destruct (String.eqb_spec tag "") as [Z|Z].
    + destruct (under E (elem_ptr E (ftype g))) eqn:U;
        try (injection H1 as <-; destruct F as [F|[F|[F|F]]]; contradiction).
      destruct (IHn _ _ _ _ _ H1 f F) as (W & R). split; [|exact R].
      eapply within_deep; [left; reflexivity|apply elem_points|exact U|exact W].
    + injection H1 as <-. apply Own. exact (listed_tagged _ _ _ _ F).
Qed.
End Classes.

(* A field of the struct itself is where FieldByName looks first. *)
Lemma direct_field : forall E depth t fs f, under E t = TStruct fs -> In f fs -> NoDup (map fname fs) ->
  find_field E (S depth) t (fname f) = Some ([fname f], ftype f).
Proof.
  intros E depth t fs f U I N. unfold find_field, field_levels. rewrite U. cbn [field_by_name].
  replace (level_matches (fname f) [([], fs)]) with [([fname f], ftype f)]; [reflexivity|].
  unfold level_matches. cbn [flat_map fst snd app]. rewrite app_nil_r. clear U.
  induction fs as [|g fs IH]; [contradiction|]. cbn [flat_map map] in *. inversion N as [|? ? N1 N2]; subst.
  assert (Z : forall gs, ~ In (fname f) (map fname gs) ->
    flat_map (fun f0 => if String.eqb (fname f0) (fname f) then [([fname f], ftype f0)] else []) gs = []).
  { clear. induction gs as [|h gs IH]; intro H; [reflexivity|]. cbn in *.
    destruct (String.eqb_spec (fname h) (fname f)); [tauto|]. apply IH. tauto. }
  destruct I as [->|I].
  - rewrite String.eqb_refl, Z by exact N1. reflexivity.
  - destruct (String.eqb_spec (fname g) (fname f)) as [X|X].
    + exfalso. apply N1. rewrite X. apply List.in_map. exact I.
    + cbn [app]. apply IH; assumption.
Qed.

(* ----- earlier calls ----- *)

Section History.
Variable E : env.
Variable depth : nat.
Variable type_string : gtype -> string.
Variable zero : gtype -> hval.
Variable assignable : gtype -> gtype -> bool.
Variable decode_attr : gtype -> cval -> result hval.
Variable hook : gtype -> option (string -> list string -> hval -> hval * result unit).
Hypothesis distinct : distinct_names E type_string.
Notation unmarshal_spec := (unmarshal_spec E depth type_string zero assignable decode_attr hook).

(* The reference map after any number of calls, successful or not, whose specs name user
   classes. *)
Inductive after : hrefmap -> hrefmap -> Prop :=
| after_none r : after r r
| after_call r spec labels t v dat v' r' o r2 : user_fields E type_string (fields_of spec) ->
    unmarshal_spec spec r labels t v dat = (v', r', o) -> after r' r2 -> after r r2.

Lemma call_rel : forall r1 r2 spec labels t v dat, linked E type_string zero r1 r2 ->
  user_fields E type_string (fields_of spec) ->
  triple_rel E type_string zero r1 r2 (unmarshal_spec spec r1 labels t v dat) (unmarshal_spec spec r2 labels t v dat).
Proof.
  intros r1 r2 spec labels t v dat K U. unfold StructModel.unmarshal_spec.
  apply unmarshal_tree_rel; [exact distinct|exact K|]. destruct spec as [[c [m|]]|]; exact U.
Qed.

Lemma after_linked : forall r r', after r r' -> ref_ok E type_string zero r -> linked E type_string zero r r'.
Proof.
  intros r r' H. induction H as [r|r spec labels t v dat v' r' o r2 U C A IH]; intro O.
  - split; [exact O|]. split; [exact O|]. intros s _. reflexivity.
  - assert (K : linked E type_string zero r r) by (split; [exact O|split; [exact O|intros s _; reflexivity]]).
    destruct (call_rel r r spec labels t v dat K U) as (_ & _ & B). rewrite C in B. cbn [fst snd] in B.
    destruct B as (G & _ & O' & _). destruct (IH O') as (_ & O2 & S). split; [exact O|]. split; [exact O2|].
    intros s Us. rewrite <- (S s Us). destruct G as (G & _). symmetry. exact (G s Us).
Qed.

Lemma after_same : forall r r' spec labels t v dat, after r r' -> ref_ok E type_string zero r ->
  user_fields E type_string (fields_of spec) ->
  fst (fst (unmarshal_spec spec r' labels t v dat)) = fst (fst (unmarshal_spec spec r labels t v dat)) /\
  snd (unmarshal_spec spec r' labels t v dat) = snd (unmarshal_spec spec r labels t v dat).
Proof.
  intros r r' spec labels t v dat A O U.
  destruct (call_rel r r' spec labels t v dat (after_linked r r' A O) U) as (T1 & T2 & _). split; congruence.
Qed.
End History.
