(* The classes of fields: lemmas about loop_fields (C30). *)

From Verif Require Import Base GoType SpecModel CollectModel DetModel CtyModel HclModel TagModel
  TagSpec TagProofs StructModel StructSpec.
From Coq Require Import Lia.

Section Fields.
Variable E : env.
Variable type_string : gtype -> string.
Variable zero : gtype -> hval.

Notation loop_fields := (loop_fields E type_string zero).
Notation tagged_field := (tagged_field E type_string zero).

(* One field of the loop. *)
Definition loop_field (n : nat) (nulls : list string) (f : gfield) (m : list (string * svalue)) (ref : hrefmap)
  : result lists :=
  if negb (is_exported (fname f)) then Ok (no_fields m ref)
  else
    do two <- tag2 (ftag f);
    let (tag, what) := two : string * string in
    if grep nulls tag then Ok (no_fields m ref)
    else if String.eqb (to_lower what) "label" then Ok (one FLabel f m ref)
    else if tag_skipped tag then Ok (no_fields m ref)
    else match lookup (fname f) m with
    | Some _ => Ok (one FOri f m ref)
    | None =>
      if String.eqb tag "" then
        match under E (elem_ptr E (ftype f)) with
        | TStruct gs => loop_fields n nulls gs m ref
        | _ => Ok (no_fields m ref)
        end
      else Ok (tagged_field f m ref)
    end.

Lemma loop_fields_nil : forall n nulls m ref, loop_fields (S n) nulls [] m ref = Ok (no_fields m ref).
Proof. reflexivity. Qed.
Lemma loop_fields_cons : forall n nulls f fs m ref,
  loop_fields (S n) nulls (f :: fs) m ref
  = do here <- loop_field n nulls f m ref;
    do rest <- loop_fields (S n) nulls fs (l_map here) (l_ref here);
    Ok (join_lists here rest).
Proof. reflexivity. Qed.

Lemma grep_spec : forall l k, grep l k = true <-> In k l.
Proof.
  intros l k. unfold grep. rewrite existsb_exists. split.
  - intros (x & I & H). apply String.eqb_eq in H. subst x. exact I.
  - intro I. exists k. split; [exact I|apply String.eqb_refl].
Qed.
Lemma grep_false : forall l k, grep l k = false <-> ~ In k l.
Proof. intros l k. rewrite <- grep_spec. destruct (grep l k); split; congruence. Qed.

Lemma points_elem : forall t u, points E t u -> elem_ptr E t = u.
Proof.
  intros t u H. unfold elem_ptr. destruct H as [t u H|t H]; [rewrite H; reflexivity|].
  destruct (under E t) eqn:U; try reflexivity. congruence.
Qed.
Lemma elem_points : forall t, points E t (elem_ptr E t).
Proof.
  intro t. unfold elem_ptr. destruct (under E t) eqn:U; try (apply points_self; congruence).
  apply points_ptr. exact U.
Qed.

(* The tag part of tag2 has no comma, so the second test of line 590 never fires. *)
Lemma chars_app : forall P a b, chars P (a +++ b) <-> chars P a /\ chars P b.
Proof. induction a as [|c a IH]; intro b; cbn; [tauto|]. rewrite IH. tauto. Qed.
Lemma split_comma_no_comma : forall s acc, no_comma acc -> no_comma (fst (split_comma acc s)).
Proof.
  induction s as [|c s IH]; intros acc H; cbn; [exact H|].
  destruct (Ascii.eqb c ",") eqn:C; [exact H|]. apply IH. apply chars_app. split; [exact H|].
  split; [|exact I]. intros ->. discriminate C.
Qed.
Lemma tag2_no_comma : forall t tag kind, tag2 t = Ok (tag, kind) -> no_comma tag.
Proof.
  intros t tag kind H. unfold tag2 in H. destruct (first_hcl (fields t)).
  - apply bindr_Ok in H as (r & _ & H). injection H as H.
    change tag with (fst (tag, kind)). rewrite <- H. apply split_comma_no_comma. exact I.
  - injection H as <- _. exact I.
Qed.
Lemma no_comma_suffix : forall s t, no_comma s -> has_suffix s (String "," t) = false.
Proof.
  induction s as [|c s IH]; intros t H; [reflexivity|]. destruct H as (H & HS).
  cbn [has_suffix]. rewrite (IH t HS), orb_false_r.
  destruct (String.eqb_spec (String c s) (String "," t)) as [F|F]; [|reflexivity].
  injection F as F _. contradiction.
Qed.
Lemma skipped_dash : forall t tag kind, tag2 t = Ok (tag, kind) -> tag_skipped tag = String.eqb tag "-".
Proof.
  intros t tag kind H. unfold tag_skipped. rewrite no_comma_suffix; [apply orb_false_r|].
  exact (tag2_no_comma _ _ _ H).
Qed.

(* ----- the kinds of types ----- *)

Definition keys_agree (specs : list string) (l : list (gfield * cls)) (m : list (string * svalue)) : Prop :=
  forall f c, In (f, c) l -> (In (fname f) specs <-> lookup (fname f) m <> None).

(* What a field of class c adds. *)
Definition adds (c : cls) (f : gfield) (L : lists) : Prop :=
  l_labels L = (if cls_eq_dec c Label then [f] else []) /\
  l_new L = (if cls_eq_dec c Attr then [f] else []) /\
  l_ori L = (if cls_eq_dec c Block then [f] else []) /\
  l_dec L = (if cls_eq_dec c Generic then [f] else []).
(* The spec map afterwards. *)
Definition map_grows (l : list (gfield * cls)) (m m' : list (string * svalue)) : Prop :=
  forall k, lookup k m' = lookup k m \/ (exists f, In (f, Block) l /\ fname f = k).

Lemma tagged_class : forall f t m ref, points E (ftype f) t ->
  let L := tagged_field f m ref in
  (block_type E t -> adds Block f L) /\ (generic_type E t -> adds Generic f L) /\
  (~ block_type E t -> ~ generic_type E t -> adds Attr f L) /\
  (forall k, k <> fname f -> lookup k (l_map L) = lookup k m).
Proof.
  intros f t m ref P. cbn zeta. unfold tagged_field, StructModel.tagged_field.
  rewrite (points_elem _ _ P).
  assert (Elem : forall et, has_elem E t et ->
    (is_struct E et \/ is_pointer E et -> block_type E t) /\ (is_interface E et -> generic_type E t)).
  { intros et H. split; intro K; [right; exists et; auto|exists et; auto]. }
  assert (Inv : forall et et', has_elem E t et -> has_elem E t et' -> et = et').
  { intros et et' [A|(k & A)] [B|(k' & B)]; congruence. }
  assert (Ins : forall (v : svalue) k, k <> fname f -> lookup k (insert (fname f) v m) = lookup k m).
  { intros v k N. apply lookup_insert_ne. congruence. }
  assert (H : forall et, has_elem E t et ->
    match elem_class E et with
    | Registered _ => block_type E t /\ ~ generic_type E t
    | Other FDec => generic_type E t /\ ~ block_type E t
    | Other FNew => ~ block_type E t /\ ~ generic_type E t
    | Other _ => False
    end).
  { intros et H. unfold elem_class.
    assert (NS : ~ is_struct E t).
    { intros (fs & F). destruct H as [A|(k & A)]; congruence. }
    destruct (under E et) eqn:U.
    all: try (split; [|intros (e' & H' & (ms & J)); rewrite <- (Inv _ _ H H') in J; congruence]).
    all: try (split).
    all: try (apply (Elem _ H); (left; eexists; exact U) || (right; eexists; exact U) || (eexists; exact U)).
    all: intros [F|(e' & H' & [(gs & J)|(u & J)])]; try contradiction;
      rewrite <- (Inv _ _ H H') in J; congruence. }
  destruct (under E t) as [n|u|et|et|kt et|gs|ms|k] eqn:U.
  - exfalso. exact (under_not_named _ _ _ U).
  - split; [|split; [|split]]; try (repeat split; fail); try reflexivity.
    + intros [(fs & F)|(et & [F|(k & F)] & _)]; congruence.
    + intros (et & [F|(k & F)] & _); congruence.
  - specialize (H et (or_introl U)). destruct (elem_class E et) as [u|[]]; try contradiction;
      destruct H as (H1 & H2); split; [|split; [|split]| |split; [|split]| |split; [|split]]; try contradiction;
      try (repeat split; fail); try reflexivity; try (apply Ins).
  - split; [|split; [|split]]; try (repeat split; fail); try reflexivity.
    + intros [(fs & F)|(et' & [F|(k & F)] & _)]; congruence.
    + intros (et' & [F|(k & F)] & _); congruence.
  - specialize (H et (or_intror (ex_intro _ kt U))). destruct (elem_class E et) as [u|[]]; try contradiction;
      destruct H as (H1 & H2); split; [|split; [|split]| |split; [|split]| |split; [|split]]; try contradiction;
      try (repeat split; fail); try reflexivity; try (apply Ins).
  - split; [|split; [|split]]; try (repeat split; fail); try (apply Ins).
    + intros (et' & [F|(k & F)] & _); congruence.
    + intro F. exfalso. apply F. left. eexists. exact U.
  - split; [|split; [|split]]; try (repeat split; fail); try reflexivity.
    + intros [(fs & F)|(et' & [F|(k & F)] & _)]; congruence.
    + intros (et' & [F|(k & F)] & _); congruence.
  - split; [|split; [|split]]; try (repeat split; fail); try reflexivity.
    + intros [(fs & F)|(et' & [F|(k' & F)] & _)]; congruence.
    + intros (et' & [F|(k' & F)] & _); congruence.
Qed.

Lemma nothing : forall f m ref c, c = Excluded \/ c = Inlined -> adds c f (no_fields m ref).
Proof. intros f m ref c [-> | ->]; repeat split. Qed.

Lemma loop_field_class : forall n nulls specs f c m ref, is_exported (fname f) = true ->
  class_of E nulls specs f c -> c <> Inlined -> (In (fname f) specs <-> lookup (fname f) m <> None) ->
  exists L, loop_field n nulls f m ref = Ok L /\ adds c f L /\
    (forall k, lookup k (l_map L) = lookup k m \/ c = Block /\ fname f = k).
Proof.
  intros n nulls specs f c m ref X C NI A. unfold loop_field. rewrite X. cbn [negb].
  destruct C as [tag kind T N|tag kind T N Lb|kind T N Lb|tag kind T N Lb D S|tag kind t T N Lb D S Em P B
    |tag kind t T N Lb D S Em P B|tag kind t T N Lb D S Em P B G|kind t T N Lb S P B|kind t T N Lb S P B];
    try contradiction; rewrite T; cbn [bindr].
  { apply grep_spec in N. rewrite N. eexists. split; [reflexivity|]. split; [apply nothing; auto|auto]. }
  all: apply grep_false in N; rewrite N.
  { unfold is_label in Lb. rewrite Lb. cbn. eexists. split; [reflexivity|]. split; [repeat split|auto]. }
  all: destruct (String.eqb_spec (to_lower kind) "label") as [Lb'|_]; [contradiction|].
  all: rewrite (skipped_dash _ _ _ T).
  { cbn. eexists. split; [reflexivity|]. split; [apply nothing; auto|auto]. }
  all: try (destruct (String.eqb_spec tag "-") as [D'|_]; [contradiction|]).
  { apply A in S. destruct (lookup (fname f) m); [|contradiction].
    eexists. split; [reflexivity|]. split; [repeat split|auto]. }
  all: assert (LN : lookup (fname f) m = None) by
    (destruct (lookup (fname f) m) eqn:LE; [exfalso; apply S, A; congruence|reflexivity]); rewrite LN.
  4: { cbn. rewrite (points_elem _ _ P).
    destruct (under E t) eqn:U; try (eexists; split; [reflexivity|]; split; [apply nothing; auto|auto]).
    exfalso. apply B. eexists. exact U. }
  all: destruct (String.eqb_spec tag "") as [Em'|_]; [contradiction|];
    destruct (tagged_class f t m ref P) as (H1 & H2 & H3 & H4).
  - eexists. split; [reflexivity|]. split; [exact (H1 B)|]. intro k.
    destruct (string_dec k (fname f)) as [->|NE]; [right; auto|left; exact (H4 k NE)].
  - eexists. split; [reflexivity|]. split; [exact (H2 B)|]. intro k. left.
    destruct B as (et & HE & (ms & I)). unfold StructModel.tagged_field. rewrite (points_elem _ _ P).
    destruct HE as [U|(kt & U)]; rewrite U; unfold elem_class; rewrite I; reflexivity.
  - eexists. split; [reflexivity|]. split; [exact (H3 B G)|]. intro k. left.
    unfold StructModel.tagged_field. rewrite (points_elem _ _ P).
    destruct (under E t) as [n'|u|et|et|kt et|gs|ms|k'] eqn:U; try reflexivity.
    + unfold elem_class. destruct (under E et) eqn:UE; try reflexivity; exfalso; apply B; right; exists et;
        (split; [left; exact U|]); (left; eexists; exact UE) || (right; eexists; exact UE).
    + unfold elem_class. destruct (under E et) eqn:UE; try reflexivity; exfalso; apply B; right; exists et;
        (split; [right; exists kt; exact U|]); (left; eexists; exact UE) || (right; eexists; exact UE).
    + exfalso. apply B. left. eexists. exact U.
Qed.

Lemma of_class_app : forall c a b, of_class c (a ++ b) = (of_class c a ++ of_class c b)%list.
Proof. intros c a b. unfold of_class. rewrite filter_app, map_app. reflexivity. Qed.
Lemma of_class_cons : forall c f c' l,
  of_class c ((f, c') :: l) = ((if cls_eq_dec c' c then [f] else []) ++ of_class c l)%list.
Proof. intros c f c' l. unfold of_class. cbn. destruct (cls_eq_dec c' c); reflexivity. Qed.

Definition field_names (l : list (gfield * cls)) : list string := map (fun fc => fname (fst fc)) l.

Lemma name_In : forall f c l, In (f, c) l -> In (fname f) (field_names l).
Proof. intros f c l I. exact (List.in_map (fun fc => fname (fst fc)) l (f, c) I). Qed.
Lemma NoDup_app_disjoint : forall A (a b : list A), NoDup (a ++ b) -> forall x, In x a -> ~ In x b.
Proof.
  induction a as [|y a IH]; intros b H x I; [contradiction|].
  inversion H as [|? ? N ND]; subst. destruct I as [->|I]; [|exact (IH _ ND _ I)].
  intro J. apply N. apply in_or_app. auto.
Qed.

(* The four lists of a struct whose exported fields have different names. *)
Definition classified (nulls specs : list string) (fs : list gfield) (l : list (gfield * cls))
    (m : list (string * svalue)) (L : lists) : Prop :=
  l_labels L = of_class Label l /\ l_new L = of_class Attr l /\ l_ori L = of_class Block l /\
  l_dec L = of_class Generic l /\ map_grows l m (l_map L).

Lemma loop_fields_classes : forall nulls specs fs l, all_fields E nulls specs fs l ->
  exists n0, forall n, n0 <= n -> forall m ref, keys_agree specs l m -> NoDup (field_names l) ->
  exists L, loop_fields n nulls fs m ref = Ok L /\ classified nulls specs fs l m L.
Proof.
  induction 1 as [|f fs l X H IH|f c fs l X C NI H IH|f t gs fs l l' X C P U H1 IH1 H2 IH2].
  - exists 1. intros [|n] Hn m ref A ND; [lia|]. eexists. split; [apply loop_fields_nil|].
    repeat split. intro k. left. reflexivity.
  - destruct IH as (n0 & IH). exists (S n0). intros [|n] Hn m ref A ND; [lia|].
    rewrite loop_fields_cons. unfold loop_field. rewrite X. cbn [negb bindr].
    cbn [no_fields l_map l_ref].
    destruct (IH (S n) ltac:(lia) m ref A ND) as (L & -> & C). cbn [bindr].
    eexists. split; [reflexivity|]. exact C.
  - destruct IH as (n0 & IH). exists (S n0). intros [|n] Hn m ref A ND; [lia|].
    rewrite loop_fields_cons.
    destruct (loop_field_class n nulls specs f c m ref X C NI (A f c (or_introl eq_refl))) as (L1 & -> & D & G).
    cbn [bindr]. cbn in ND. inversion ND as [|? ? NIn ND']; subst.
    assert (A' : keys_agree specs l (l_map L1)).
    { intros g d I. rewrite (A g d (or_intror I)). destruct (G (fname g)) as [->|(-> & F)]; [tauto|].
      exfalso. apply NIn. rewrite F. exact (name_In _ _ _ I). }
    destruct (IH (S n) ltac:(lia) (l_map L1) (l_ref L1) A' ND') as (L & -> & Q1 & Q2 & Q3 & Q4 & Q5).
    cbn [bindr]. eexists. split; [reflexivity|]. destruct D as (D1 & D2 & D3 & D4).
    unfold classified. rewrite !of_class_cons. unfold join_lists. cbn [l_labels l_new l_ori l_dec l_map].
    rewrite D1, D2, D3, D4, Q1, Q2, Q3, Q4. repeat split.
    intro k. destruct (Q5 k) as [->|(g & I & <-)]; [|right; exists g; split; [right; exact I|reflexivity]].
    destruct (G k) as [->|(-> & <-)]; [left; reflexivity|right; exists f; split; [left|]; reflexivity].
  - destruct IH1 as (n1 & IH1), IH2 as (n2 & IH2). exists (S (n1 + n2)). intros [|n] Hn m ref A ND; [lia|].
    rewrite loop_fields_cons. cbn in ND. inversion ND as [|? ? NIn ND']; subst.
    unfold field_names in ND'. rewrite map_app in ND'.
    assert (A1 : keys_agree specs l m) by (intros g d I; apply (A g d); right; apply in_or_app; auto).
    destruct (IH1 n ltac:(lia) m ref A1 (NoDup_app_l _ _ _ ND')) as (L1 & R1 & P1 & P2 & P3 & P4 & P5).
    assert (LF : loop_field n nulls f m ref = Ok L1).
    { unfold loop_field. rewrite X. cbn [negb]. pose proof (A f Inlined (or_introl eq_refl)) as AF.
      inversion C as [| | | | | | |kind t' T N Lb S P' B|]; subst. rewrite T. cbn [bindr].
      apply grep_false in N. rewrite N.
      destruct (String.eqb_spec (to_lower kind) "label") as [Lb'|_]; [contradiction|].
      rewrite (skipped_dash _ _ _ T). cbn.
      destruct (lookup (fname f) m) eqn:LE; [exfalso; apply S, AF; congruence|].
      rewrite (points_elem _ _ P), U. exact R1. }
    rewrite LF. cbn [bindr].
    assert (A2 : keys_agree specs l' (l_map L1)).
    { intros g d I. rewrite (A g d) by (right; apply in_or_app; auto).
      destruct (P5 (fname g)) as [->|(h & J & F)]; [tauto|]. exfalso.
      apply (NoDup_app_disjoint _ _ _ ND' (fname g)); [rewrite <- F; exact (name_In _ _ _ J)|].
      exact (name_In _ _ _ I). }
    destruct (IH2 (S n) ltac:(lia) (l_map L1) (l_ref L1) A2 (NoDup_app_r _ _ _ ND')) as (L & -> & Q1 & Q2 & Q3 & Q4 & Q5).
    cbn [bindr]. eexists. split; [reflexivity|].
    unfold classified. rewrite !of_class_cons, !of_class_app. unfold join_lists.
    cbn [l_labels l_new l_ori l_dec l_map cls_eq_dec].
    rewrite P1, P2, P3, P4, Q1, Q2, Q3, Q4. repeat split.
    intro k. destruct (Q5 k) as [->|(g & I & <-)].
    + destruct (P5 k) as [->|(g & I & <-)]; [left; reflexivity|].
      right. exists g. split; [right; apply in_or_app; left; exact I|reflexivity].
    + right. exists g. split; [right; apply in_or_app; right; exact I|reflexivity].
Qed.
End Fields.
