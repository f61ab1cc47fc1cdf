(* Splitting an attribute into blocks (C33). *)

From Verif Require Import Base GoType SpecModel CollectModel DetModel CtyModel HclModel TagModel StructModel StructScan.
From Coq Require Import Lia.

(* Objects in braces with separators: no brace opens in a separator, the text of an object is
   not empty and no brace closes in it. *)
Fixpoint no_char (c : ascii) (s : string) : Prop :=
  match s with "" => True | String d s' => d <> c /\ no_char c s' end.
Inductive objects_text : list string -> string -> Prop :=
| ot_end s : no_char "{" s -> objects_text [] s
| ot_next sep b rest l : no_char "{" sep -> b <> "" -> no_char "}" b -> objects_text l rest ->
    objects_text (b :: l) (sep +++ "{" +++ b +++ "}" +++ rest).

Lemma length_append : forall a b, String.length (a +++ b) = String.length a + String.length b.
Proof. induction a as [|c a IH]; intro b; [reflexivity|]. cbn. rewrite IH. reflexivity. Qed.

Lemma find_close_skip : forall b pos rest, no_char "}" b ->
  find_close (b +++ "}" +++ rest) pos = Some (S (pos + String.length b)).
Proof.
  induction b as [|c b IH]; intros pos rest H; cbn.
  - f_equal. lia.
  - destruct H as (N & H). destruct (Ascii.eqb_spec c "}"); [contradiction|].
    change (find_close (b +++ "}" +++ rest) (S pos) = Some (S (pos + S (String.length b)))).
    rewrite IH by exact H. f_equal. lia.
Qed.
Lemma find_all_open : forall d s pos e, d <> "}"%char -> find_close (String d s) (S pos) = Some e ->
  find_all 0 (String "{" (String d s)) pos = (pos, e) :: find_all (e - S pos) (String d s) (S pos).
Proof.
  intros d s pos e N H.
  transitivity (if Ascii.eqb d "}" then find_all 0 (String d s) (S pos)
    else match find_close (String d s) (S pos) with
         | Some e => (pos, e) :: find_all (e - S pos) (String d s) (S pos)
         | None => []
         end); [reflexivity|].
  destruct (Ascii.eqb_spec d "}"); [contradiction|]. rewrite H. reflexivity.
Qed.
Lemma find_all_skip : forall s k pos rest, String.length s = k ->
  find_all k (s +++ rest) pos = find_all 0 rest (pos + k).
Proof.
  induction s as [|c s IH]; intros k pos rest H; cbn in H; subst k.
  - rewrite Nat.add_0_r. reflexivity.
  - cbn [String.append find_all]. rewrite IH by reflexivity. f_equal. lia.
Qed.
Lemma find_all_sep : forall s pos rest, no_char "{" s ->
  find_all 0 (s +++ rest) pos = find_all 0 rest (pos + String.length s).
Proof.
  induction s as [|c s IH]; intros pos rest H; cbn [String.append].
  - rewrite Nat.add_0_r. reflexivity.
  - destruct H as (N & H). cbn [find_all]. destruct (Ascii.eqb_spec c "{"); [contradiction|].
    rewrite IH by exact H. cbn [String.length]. f_equal. lia.
Qed.

Lemma substring_app : forall a b c, substring (String.length a) (String.length b) (a +++ b +++ c) = b.
Proof.
  induction a as [|x a IH]; intros b c; cbn [String.append String.length substring].
  - induction b as [|y b IHb]; [destruct c; reflexivity|]. cbn. rewrite IHb. reflexivity.
  - apply IH.
Qed.

Lemma find_all_objects : forall bodies text, objects_text bodies text -> forall dat pre post,
  dat = pre +++ text +++ post -> forall base pos, base + pos = String.length pre ->
  map (fun se => slice dat (base + fst se + 1) (base + snd se - 1)) (find_all 0 text pos) = bodies.
Proof.
  intros bodies text H. induction H as [s N|sep b rest l N NE NC H IH]; intros dat pre post D base pos P.
  - replace s with (s +++ "") by (clear; induction s as [|c s IH]; [reflexivity|]; cbn; rewrite IH; reflexivity).
    rewrite find_all_sep by exact N. reflexivity.
  - rewrite find_all_sep by exact N. destruct b as [|d b]; [contradiction|].
    destruct NC as (Nd & NC).
    change ("{" +++ String d b +++ "}" +++ rest) with (String "{" (String d (b +++ "}" +++ rest))).
    rewrite (find_all_open d _ _ (S (S (pos + String.length sep) + String.length (String d b))));
      [|exact Nd|apply (find_close_skip (String d b)); split; assumption].
    cbn [map fst snd]. f_equal.
    + unfold slice. subst dat.
      replace (base + (pos + String.length sep) + 1) with (String.length (pre +++ sep +++ "{"))
        by (rewrite !length_append; cbn; lia).
      replace (base + S (S (pos + String.length sep) + String.length (String d b)) - 1
               - String.length (pre +++ sep +++ "{")) with (String.length (String d b))
        by (rewrite !length_append; cbn [String.length]; lia).
      replace (pre +++ (sep +++ "{" +++ String d b +++ "}" +++ rest) +++ post)
        with ((pre +++ sep +++ "{") +++ String d b +++ ("}" +++ rest +++ post))
        by (rewrite !append_assoc; reflexivity).
      apply substring_app.
    + match goal with |- map _ (find_all ?k _ ?p) = _ =>
        assert (FA : find_all k ((String d b +++ "}") +++ rest) p = find_all 0 rest (p + k))
          by (apply find_all_skip; rewrite length_append; cbn [String.length]; lia) end.
      rewrite append_assoc in FA. cbn [String.append] in FA. cbn [String.append]. rewrite FA. clear FA.
      apply IH with (pre := pre +++ sep +++ "{" +++ String d b +++ "}") (post := post).
      * subst dat. rewrite !append_assoc. cbn [String.append]. rewrite ?append_assoc. cbn [String.append]. rewrite ?append_assoc. reflexivity.
      * rewrite !length_append. cbn [String.length]. rewrite ?length_append. cbn [String.length]. lia.
Qed.

Lemma split_objects : forall dat a pre c text post bodies,
  dat = pre +++ String c (text +++ post) -> a_eq a = String.length pre ->
  a_end a = S (String.length pre + String.length text) -> can_iterate (a_value a) = true ->
  objects_text bodies text ->
  exists bs, attr_blocks dat a = Ok bs /\ map (block_bytes dat) bs = bodies /\
    forall b, In b bs -> b_type b = a_name a /\ b_labels b = [].
Proof.
  intros dat a pre c text post bodies D Q Z C O. unfold attr_blocks. rewrite C. cbn [negb].
  rewrite Q, Z. destruct (Nat.ltb_spec (S (String.length pre + String.length text)) (S (String.length pre))); [lia|].
  eexists. split; [reflexivity|].
  assert (T : slice dat (S (String.length pre)) (S (String.length pre + String.length text)) = text).
  { unfold slice. subst dat.
    replace (S (String.length pre + String.length text) - S (String.length pre)) with (String.length text) by lia.
    replace (S (String.length pre)) with (String.length (pre +++ String c ""))
      by (rewrite length_append; cbn; lia).
    replace (pre +++ String c (text +++ post)) with ((pre +++ String c "") +++ text +++ post)
      by (rewrite append_assoc; reflexivity).
    apply substring_app. }
  rewrite T. split.
  - rewrite map_map. unfold block_bytes. cbn [b_open b_close].
    apply find_all_objects with (text := text) (pre := pre +++ String c "") (post := post); [exact O| |].
    + subst dat. rewrite append_assoc. reflexivity.
    + rewrite length_append. cbn. lia.
  - intros b I. apply in_map_iff in I as (se & <- & _). split; reflexivity.
Qed.
