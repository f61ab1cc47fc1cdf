(* Proofs about struct tags. *)

From Verif Require Import Base CtyModel HclModel TagModel TagSpec.
From Coq Require Import Lia ZifyBool ZifyNat.

Lemma space_white : forall c, space_char c = true <-> white c.
Proof.
  intros c. unfold space_char, white, char_in. split.
  - intro H. apply orb_true_iff in H as [H|H].
    + apply Ascii.eqb_eq in H. subst c. left. reflexivity.
    + right. lia.
  - intros [H|H]; apply orb_true_iff.
    + left. apply Ascii.eqb_eq. rewrite <- (ascii_nat_embedding c), H. reflexivity.
    + right. lia.
Qed.

Lemma space_high : forall c, 32 < nat_of_ascii c -> space_char c = false.
Proof.
  intros c H. destruct (space_char c) eqn:S; [|reflexivity].
  apply space_white in S. unfold white in S. lia.
Qed.

Lemma fields_split : forall a cur w b, white w ->
  fields_from cur (a +++ String w b) = (fields_from cur a ++ fields_from "" b)%list.
Proof.
  induction a as [|c a IH]; intros cur w b W; cbn [String.append fields_from].
  - rewrite (proj2 (space_white w) W). destruct cur; reflexivity.
  - destruct (space_char c).
    + rewrite IH by exact W. destruct cur; reflexivity.
    + apply IH. exact W.
Qed.

Lemma white_blank : white " ".
Proof. left. reflexivity. Qed.

Lemma fields_blanks : forall n s, fields_from "" (blanks n +++ s) = fields_from "" s.
Proof. induction n as [|n IH]; intro s; [reflexivity|]. cbn. apply IH. Qed.

Lemma fields_end_blanks : forall s cur n, fields_from cur (s +++ blanks n) = fields_from cur s.
Proof.
  intros s cur [|n]; [cbn; rewrite append_nil_r; reflexivity|].
  cbn [blanks]. rewrite fields_split by apply white_blank.
  replace (blanks n) with (blanks n +++ "") by apply append_nil_r.
  rewrite fields_blanks. cbn. rewrite app_nil_r. reflexivity.
Qed.

Lemma fields_run : forall k cur s, chars (fun c => 32 < nat_of_ascii c) k ->
  fields_from cur (k +++ s) = fields_from (cur +++ k) s.
Proof.
  induction k as [|c k IH]; intros cur s H; cbn [String.append fields_from].
  - rewrite append_nil_r. reflexivity.
  - destruct H as [Hc H]. rewrite (space_high c Hc). rewrite IH by exact H.
    rewrite append_assoc. reflexivity.
Qed.

Lemma chars_impl : forall (P Q : ascii -> Prop) s, (forall c, P c -> Q c) -> chars P s -> chars Q s.
Proof. induction s as [|c s IH]; intros I H; cbn in *; [exact H|]. split; [apply I|apply IH]; tauto. Qed.

Lemma first_hcl_app : forall a b, first_hcl (a ++ b) =
  match first_hcl a with Some r => Some r | None => first_hcl b end.
Proof.
  induction a as [|f a IH]; intro b; cbn; [reflexivity|].
  destruct (hcl_rest f); [reflexivity|]. apply IH.
Qed.

(* A field is what stands in front, or a piece after white space. *)
Lemma fragment : forall s cur f, In f (fields_from cur s) ->
  (exists a b, f = cur +++ a /\ s = a +++ b) \/
  (exists p w q, white w /\ s = p +++ String w (f +++ q)).
Proof.
  induction s as [|c s IH]; intros cur f H; cbn [fields_from] in H.
  - left. exists "", "". rewrite append_nil_r. split; [|reflexivity].
    destruct cur; cbn in H; [contradiction|]. destruct H as [H|[]]. symmetry. exact H.
  - destruct (space_char c) eqn:S.
    + apply space_white in S.
      assert (J : f = cur \/ In f (fields_from "" s)).
      { destruct cur; cbn in H; [right; exact H|]. destruct H as [H|H]; [left; symmetry; exact H|right; exact H]. }
      destruct J as [->|J].
      * left. exists "", (String c s). rewrite append_nil_r. split; reflexivity.
      * right. destruct (IH "" f J) as [(a & b & E1 & E2)|(p & w & q & W & E)].
        -- cbn in E1. subst. exists "", c, b. split; [exact S|reflexivity].
        -- exists (String c p), w, q. split; [exact W|]. rewrite E. reflexivity.
    + destruct (IH _ f H) as [(a & b & E1 & E2)|(p & w & q & W & E)].
      * left. exists (String c a), b. subst. rewrite append_assoc. split; reflexivity.
      * right. exists (String c p), w, q. split; [exact W|]. rewrite E. reflexivity.
Qed.

Lemma lower_inv : forall x y, lower_char x = y -> 97 <= nat_of_ascii y -> nat_of_ascii y <= 122 ->
  x = y \/ nat_of_ascii x = nat_of_ascii y - 32.
Proof.
  intros x y H L U. unfold lower_char in H. destruct (char_in 65 90 x) eqn:C; [|left; exact H].
  right. subst y. unfold char_in in C. rewrite nat_ascii_embedding in * by lia. lia.
Qed.
Lemma lower_other : forall x y, lower_char x = y -> nat_of_ascii y < 97 -> x = y.
Proof.
  intros x y H L. unfold lower_char in H. destruct (char_in 65 90 x) eqn:C; [|exact H].
  exfalso. subst y. unfold char_in in C. rewrite nat_ascii_embedding in L by lia. lia.
Qed.

Lemma hcl_rest_looks : forall f r, hcl_rest f = Some r ->
  exists h, looks_hcl h /\ f = h +++ ":""" +++ r.
Proof.
  intros f r H. unfold hcl_rest in H.
  destruct f as [|a [|b [|c [|d [|e q]]]]]; try discriminate.
  destruct (String.eqb _ _) eqn:X; [|discriminate]. injection H as <-.
  apply String.eqb_eq in X. cbn [to_lower quote String.append] in X.
  injection X as Xa Xb Xc Xd Xe.
  apply lower_other in Xd; [|cbn; lia]. apply lower_other in Xe; [|cbn; lia]. subst d e.
  exists (String a (String b (String c ""))). split; [|reflexivity].
  exists a, b, c. split; [reflexivity|].
  assert (G : forall x y z, lower_char x = y -> 97 <= nat_of_ascii y -> nat_of_ascii y <= 122 ->
            nat_of_ascii z = nat_of_ascii y - 32 -> x = y \/ x = z).
  { intros x y z L1 L2 L3 L4. destruct (lower_inv x y L1 L2 L3) as [->|N]; [left; reflexivity|].
    right. rewrite <- (ascii_nat_embedding x), N, <- L4. apply ascii_nat_embedding. }
  repeat split; eapply G; try eassumption; cbn; lia.
Qed.

Lemma hcl_rest_none : forall f, hcl_rest f = None \/ exists r, hcl_rest f = Some r.
Proof. intro f. destruct (hcl_rest f) as [r|]; [right; exists r; reflexivity|left; reflexivity]. Qed.

Lemma first_hcl_none : forall l, (forall f, In f l -> hcl_rest f = None) -> first_hcl l = None.
Proof.
  induction l as [|f l IH]; intro H; [reflexivity|]. cbn. rewrite (H f) by (left; reflexivity).
  apply IH. intros g G. apply H. right. exact G.
Qed.

(* Keys end at the first colon. *)
Lemma key_colon : forall k h a b, chars (fun c => c <> ":"%char) k -> chars (fun c => c <> ":"%char) h ->
  k +++ String ":" a = h +++ String ":" b -> k = h.
Proof.
  induction k as [|c k IH]; intros [|d h] a b K H E; cbn in *; try reflexivity; try congruence.
  - injection E as E _. subst d. destruct H. congruence.
  - injection E as E _. subst c. destruct K. congruence.
  - injection E as -> E. f_equal. eapply IH; [exact (proj2 K)|exact (proj2 H)|exact E].
Qed.

Lemma looks_no_colon : forall h, looks_hcl h -> chars (fun c => c <> ":"%char) h.
Proof.
  intros h (a & b & c & -> & A & B & C). cbn.
  repeat split; [destruct A|destruct B|destruct C]; subst; discriminate.
Qed.

(* In a quoted text the closing quote is the first one after a character other than a
   backslash. *)
Lemma closing_quote : forall v, quoted_text v -> forall x d y, d <> "\"%char ->
  v +++ """" = x +++ String d (String """" y) -> v = x +++ String d "".
Proof.
  assert (G : forall v, quoted_text v ->
    (forall x d y, d <> "\"%char -> v +++ """" = x +++ String d (String """" y) -> v = x +++ String d "")
    /\ (forall y, v +++ """" = String """" y -> v = "")).
  { induction 1 as [|c s C1 C2 Q [IH1 IH2]|c s Q [IH1 IH2]].
    - split; [|reflexivity]. intros x d y D E.
      destruct x as [|e [|f x]]; cbn in E; try discriminate.
    - split; [|cbn; congruence]. intros x d y D E. destruct x as [|e x]; cbn in E.
      + injection E as -> E. rewrite (IH2 y E). reflexivity.
      + injection E as -> E. cbn. rewrite (IH1 x d y D E). reflexivity.
    - split; [|cbn; congruence]. intros x d y D E. destruct x as [|e x]; cbn in E.
      + injection E as E _. congruence.
      + injection E as -> E. destruct x as [|e2 x]; cbn in E.
        * injection E as -> E. rewrite (IH2 y E). reflexivity.
        * injection E as -> E. cbn. rewrite (IH1 x d y D E). reflexivity. }
  intros v Q. exact (proj1 (G v Q)).
Qed.

Lemma key_high : forall k, tag_key k -> chars (fun c => 32 < nat_of_ascii c) k.
Proof. intros k [_ H]. eapply chars_impl; [|exact H]. unfold key_char. tauto. Qed.
Lemma key_no_colon : forall k, tag_key k -> chars (fun c => c <> ":"%char) k.
Proof. intros k [_ H]. eapply chars_impl; [|exact H]. unfold key_char. tauto. Qed.

Lemma entry_fields : forall k v, tag_key k ->
  fields (entry_text k v) = fields_from (k +++ ":""") (v +++ """").
Proof.
  intros k v K. unfold fields, entry_text.
  rewrite (fields_run k "" _ (key_high k K)). cbn [String.append fields_from].
  change (space_char ":") with false. change (space_char """") with false. cbn iota.
  rewrite append_assoc. reflexivity.
Qed.

Lemma entry_unlike : forall k v, tag_key k -> quoted_text v -> unlike_hcl (k, v) ->
  first_hcl (fields (entry_text k v)) = None.
Proof.
  intros k v K Q [U1 U2]. cbn [fst snd] in *. rewrite entry_fields by exact K.
  apply first_hcl_none. intros f F.
  destruct (hcl_rest_none f) as [N|[r R]]; [exact N|exfalso].
  apply hcl_rest_looks in R as (h & L & ->).
  destruct (fragment _ _ _ F) as [(a & b & E1 & E2)|(p & w & q & W & E)].
  - apply U1. replace k with h; [exact L|].
    rewrite append_assoc in E1. cbn in E1. symmetry.
    eapply key_colon; [apply key_no_colon; exact K|apply looks_no_colon; exact L|symmetry; exact E1].
  - apply (U2 p w h W L).
    replace (p +++ String w (h +++ ":")) with ((p +++ String w h) +++ String ":" "")
      by (rewrite append_assoc; reflexivity).
    apply closing_quote with (y := r +++ q); [exact Q|discriminate|].
    rewrite E. rewrite !append_assoc. cbn. rewrite ?append_assoc. reflexivity.
Qed.

Lemma append_cons_app : forall a c b, (a +++ str1 c) +++ b = a +++ String c b.
Proof. intros a c b. rewrite append_assoc. reflexivity. Qed.

Lemma but_last_app : forall v c, but_last (v +++ str1 c) = v.
Proof.
  induction v as [|d v IH]; intro c; [reflexivity|]. cbn. rewrite IH.
  destruct v; reflexivity.
Qed.

Lemma drop_last_quote : forall v, drop_last (v +++ """") = Ok v.
Proof.
  intro v. unfold drop_last. change """" with (str1 """"). rewrite but_last_app.
  destruct v; reflexivity.
Qed.

Lemma split_comma_spec : forall v acc, no_comma v -> split_comma acc v = (acc +++ v, "").
Proof.
  induction v as [|c v IH]; intros acc H; cbn in *; [rewrite append_nil_r; reflexivity|].
  destruct H as [H1 H2]. destruct (Ascii.eqb_spec c ","); [contradiction|].
  rewrite IH by exact H2. rewrite append_cons_app. reflexivity.
Qed.
Lemma split_comma_spec2 : forall n k acc, no_comma n -> split_comma acc (n +++ "," +++ k) = (acc +++ n, k).
Proof.
  induction n as [|c n IH]; intros k acc H; cbn in *; [rewrite append_nil_r; reflexivity|].
  destruct H as [H1 H2]. destruct (Ascii.eqb_spec c ","); [contradiction|].
  rewrite IH by exact H2. rewrite append_cons_app. reflexivity.
Qed.
Lemma split_name_kind : forall v n k, name_kind v n k -> split_comma "" v = (n, k).
Proof.
  intros v n k [v' H|n' k' H]; [apply split_comma_spec|apply split_comma_spec2]; exact H.
Qed.

Lemma hcl_entry : forall v, plain_value v ->
  first_hcl (fields (entry_text "hcl" v)) = Some (v +++ """").
Proof.
  intros v P. unfold entry_text.
  replace ("hcl" +++ ":""" +++ v +++ """") with (("hcl:""" +++ v +++ """") +++ "") by apply append_nil_r.
  unfold fields. rewrite fields_run.
  - reflexivity.
  - cbn. repeat split; try (cbn; lia).
    induction v as [|c v IH]; cbn; [split; [cbn; lia|exact I]|].
    destruct P as [P1 P2]. split; [unfold plain_char in P1; tauto|apply IH; exact P2].
Qed.

(* The hcl fields of a tag text are those of its entries, in order. *)
Definition entry_hcl (e : string * string) : option string :=
  first_hcl (fields (entry_text (fst e) (snd e))).
Fixpoint first_some (l : list (option string)) : option string :=
  match l with [] => None | Some x :: _ => Some x | None :: l' => first_some l' end.

Lemma tag_fields : forall l s, tag_text l s -> first_hcl (fields s) = first_some (map entry_hcl l).
Proof.
  induction 1 as [n|n k v m K Q|n k v l s K Q H IH]; unfold fields in *.
  - replace (blanks n) with ("" +++ blanks n) by reflexivity. rewrite fields_end_blanks. reflexivity.
  - rewrite fields_blanks. rewrite fields_end_blanks. cbn [map first_some]. unfold entry_hcl, fields. cbn [fst snd].
    destruct (first_hcl _); reflexivity.
  - rewrite fields_blanks. change (" " +++ s) with (String " " s).
    rewrite fields_split by apply white_blank. rewrite first_hcl_app.
    cbn [map first_some]. unfold entry_hcl at 1, fields at 1. cbn [fst snd].
    destruct (first_hcl (fields_from "" (entry_text k v))); [reflexivity|exact IH].
Qed.

Lemma tag_entries : forall l s, tag_text l s -> Forall (fun e => tag_key (fst e) /\ quoted_text (snd e)) l.
Proof. induction 1; constructor; auto. Qed.

Lemma first_some_unlike : forall l r,
  Forall (fun e => tag_key (fst e) /\ quoted_text (snd e)) l -> Forall unlike_hcl l ->
  first_some (map entry_hcl l ++ r) = first_some r.
Proof.
  induction l as [|[k v] l IH]; intros r T U; [reflexivity|].
  apply Forall_inv in T as T1. apply Forall_inv in U as U1. cbn [map app first_some].
  unfold entry_hcl at 1. rewrite entry_unlike; [|exact (proj1 T1)|exact (proj2 T1)|exact U1].
  apply IH; [exact (Forall_inv_tail T)|exact (Forall_inv_tail U)].
Qed.

Lemma tag2_found : forall l1 v l2 tag name kind,
  tag_text (l1 ++ ("hcl", v) :: l2) tag -> Forall unlike_hcl l1 ->
  plain_value v -> name_kind v name kind -> tag2 tag = Ok (name, kind).
Proof.
  intros l1 v l2 tag name kind T U P N. unfold tag2. rewrite (tag_fields _ _ T).
  apply tag_entries in T. apply Forall_app in T as [T _].
  rewrite map_app, first_some_unlike by assumption. cbn [map first_some].
  unfold entry_hcl at 1. cbn [fst snd]. rewrite hcl_entry by exact P.
  rewrite drop_last_quote. cbn [bindr]. rewrite (split_name_kind _ _ _ N). reflexivity.
Qed.

Lemma tag2_absent : forall l tag, tag_text l tag -> Forall unlike_hcl l -> tag2 tag = Ok ("", "").
Proof.
  intros l tag T U. unfold tag2. rewrite (tag_fields _ _ T).
  rewrite <- (app_nil_r (map entry_hcl l)).
  rewrite first_some_unlike by (try assumption; eapply tag_entries; exact T). reflexivity.
Qed.
