(* The round trip of generic data through HCL. *)

From Verif Require Import Base CtyModel CtySpec CtyProofs CtyProofs2 HclModel HclSpec HclNumber
  HclDecode HclParse PlainScan HclScan.
From Coq Require Import Lia.
Local Open Scope nat_scope.

(* ----- the marshaller, unfolded ----- *)

Definition label_name (name key : string) : string := name +++ " " +++ quote +++ key +++ quote.
Fixpoint each_hash (level : nat) (name : string) (depth : nat) (mm : list (string * native))
  : result (list string) :=
  match mm with
  | [] => Ok []
  | (key, value) :: mm' =>
    do a <- loop_hash level (label_name name key) (S depth) None value;
    do b <- each_hash level name depth mm';
    Ok (a ++ b)%list
  end.

Definition direct_text (level : nat) (x : native) : result string :=
  match scalar_text x with
  | Some r => r
  | None => do b <- marshal_level x (S level) None; Ok (bytes b)
  end.
Definition entry (level : nat) (kn : option string) (k : string) (x : native) : result (list string) :=
  match x with
  | NNil => Ok [k +++ " = null()"]
  | _ => if is_nmr kn then do t <- direct_text level x; Ok [k +++ " = " +++ t]
         else loop_hash level k 0 kn x
  end.
Fixpoint entries (level : nat) (kn : option string) (m : list (string * native)) : result (list string) :=
  match m with
  | [] => Ok []
  | (k, x) :: m' =>
    do here <- entry level kn k x; do rest <- entries level kn m'; Ok (here ++ rest)%list
  end.
Fixpoint elems (level : nat) (l : list native) : result (list string) :=
  match l with
  | [] => Ok []
  | x :: l' =>
    do b <- marshal_level x (S level) (Some nmr);
    do rest <- elems level l';
    Ok (match b with Some t => t | None => "[]" end :: rest)
  end.

Definition block_text (level : nat) (arr : list string) : string :=
  "{" +++ nl +++ (lead (S level) +++ join (nl +++ lead (S level)) arr) +++ nl +++ lead level +++ "}".
Definition list_text (level : nat) (arr : list string) : string :=
  "[" +++ nl +++ lead (S level) +++ join ("," +++ nl +++ lead (S level)) arr
    +++ nl +++ lead level +++ "]".

Lemma loop_hash_2 : forall level name depth kn mm, hash_kind depth (NMap mm) = 2 ->
  loop_hash level name depth kn (NMap mm) = each_hash level name depth mm.
Proof.
  intros level name depth kn mm H. cbn [loop_hash]. rewrite H. clear H.
  induction mm as [|[k v] mm IH]; [reflexivity|]. cbn [each_hash].
  rewrite <- IH. reflexivity.
Qed.

Lemma loop_hash_1 : forall level name depth kn v, hash_kind depth v = 1 ->
  loop_hash level name depth kn v =
  do b <- marshal_level v (S level) (Some name); Ok [name +++ " " +++ bytes b].
Proof. intros level name depth kn v H. destruct v; cbn [loop_hash]; rewrite H; reflexivity. Qed.

Lemma marshal_map : forall m level kn, marshal_level (NMap m) level kn =
  do arr <- entries level kn m;
  let inner := lead (S level) +++ join (nl +++ lead (S level)) arr in
  Ok (Some (if Nat.eqb level 0 then nl +++ inner +++ nl +++ lead level
            else "{" +++ nl +++ inner +++ nl +++ lead level +++ "}")).
Proof.
  intros m level kn. cbn [marshal_level go_zero].
  match goal with |- bindr ?a _ = bindr ?b _ => assert (E : a = b); [|rewrite E; reflexivity] end.
  induction m as [|[k x] m IH]; [reflexivity|]. cbn [entries]. rewrite <- IH. reflexivity.
Qed.
Lemma marshal_map_S : forall m level kn, marshal_level (NMap m) (S level) kn =
  do arr <- entries (S level) kn m; Ok (Some (block_text (S level) arr)).
Proof. intros. rewrite marshal_map. reflexivity. Qed.

Lemma marshal_list : forall l level kn, marshal_level (NList l) level kn =
  do arr <- elems level l; Ok (Some (list_text level arr)).
Proof.
  intros l level kn. cbn [marshal_level go_zero].
  match goal with |- bindr ?a _ = bindr ?b _ => assert (E : a = b); [|rewrite E; reflexivity] end.
  induction l as [|x l IH]; [reflexivity|]. cbn [elems]. rewrite <- IH. reflexivity.
Qed.

(* ----- texts of expressions ----- *)

(* The text reads as an expression with the value v. *)
Definition reads (t : string) (v : native) : Prop :=
  exists e ts, etoks e ts /\ scans t ts /\ good_expr e /\ forall v', expr_value e v' -> same v v'.

Lemma reads_str : forall s, quotable s -> reads (quote +++ s +++ quote) (NStr s).
Proof.
  intros s Q. exists (EStr s), [TStr s]. split; [constructor|]. split.
  { apply scans0_scans. apply scans0_quoted. exact Q. }
  split; [constructor|]. intros v' H. inversion H; subst. constructor. constructor. exact Q.
Qed.
Lemma reads_bool : forall b : bool, reads (if b then "true" else "false") (NBool b).
Proof.
  intros b. exists (EBool b), [TIdent (if b then "true" else "false")]. split.
  { destruct b; [exact (et_kw "true")|exact (et_kw "false")]. }
  split.
  { apply scans_ident. destruct b; split; reflexivity. }
  split; [constructor|]. intros v' H. inversion H; subst. constructor. constructor.
Qed.
Lemma reads_int : forall z v, in_int64 z -> native_int z v -> scalar v -> reads (dec_Z z) v.
Proof.
  intros z v I64 N Sc.
  exists (ENum z), (if (z <? 0)%Z then [TMinus; TNum (- z)] else [TNum z]). split.
  { destruct (z <? 0)%Z; [|constructor].
    assert (X := et_neg (- z)). rewrite Z.opp_involutive in X. exact X. }
  split; [apply scans_int|]. split; [constructor; exact I64|].
  intros v' H. inversion H as [z' v0 H1 H2| | | | | | | |]; subst.
  destruct N as [[-> N]|[-> N]], H2 as [[-> H2]|[-> H2]]; try contradiction; constructor; exact Sc.
Qed.
Lemma float_text_plain : forall d m, (0 < num d)%Z -> (num d * 1000000 = m * pow2 (den d))%Z -> float_text d = six m.
Proof.
  intros d m Hp E. unfold float_text, six. pose proof (CtyProofs.pow2_pos (den d)) as P.
  rewrite Z.abs_eq by lia. rewrite E. rewrite Z.div_mul, Z.mod_mul by lia.
  replace (num d <? 0)%Z with false by lia.
  replace (pow2 (den d) <? 2 * 0)%Z with false by lia. replace (2 * 0 =? pow2 (den d))%Z with false by lia. reflexivity.
Qed.
Lemma reads_frac : forall d v, plain_fraction d -> v = NF32 d \/ v = NF64 d -> reads (float_text d) v.
Proof.
  intros d v Hp Hv. destruct (plain_million d Hp) as (m & Em & Rm).
  rewrite (float_text_plain d m (proj1 Hp) Em).
  exists (EDec m 6), [TDec m 6]. split; [constructor|]. split; [apply scans_six; lia|]. split; [constructor; lia|].
  intros v' H. inversion H as [|m' k' v0 L| | | | | | |]; subst.
  assert (S : same_num d (decimal m 6)).
  { apply decimal_exact; [apply bits_of_representable; apply Hp|]. exact Em. }
  destruct (plain_literal _ _ _ Hp S L) as (z & -> & Sz).
  destruct Hv as [->| ->]; constructor; assumption.
Qed.
Lemma reads_null : reads "null()" NNil.
Proof.
  exists (ECall "null"), [TIdent "null"; TLParen; TRParen]. split; [constructor|]. split.
  { apply scans0_scans. exact scans0_call. }
  split; [constructor|]. intros v' H. inversion H; subst. exact same_nil.
Qed.
Lemma reads_empty : reads "[]" NNilList.
Proof.
  exists (ETuple []), [TLBrack; TRBrack]. split; [constructor; constructor|]. split.
  { apply scans0_scans. exact scans0_empty. }
  split; [constructor; intros e []|]. intros v' H. inversion H; subst; [exact same_nillist|congruence].
Qed.

Lemma scalar_reads : forall v, scalar v -> exists t, scalar_text v = Some (Ok t) /\ reads t v
  /\ forall level kn, marshal_level v level kn = if go_zero v then Ok None else Ok (Some t).
Proof.
  intros v S. assert (S0 := S). destruct S as [s Q|b|z I|z I N|d Hp|d Hp].
  - eexists; split; [reflexivity|]. split; [exact (reads_str s Q)|]. reflexivity.
  - eexists; split; [reflexivity|]. split; [exact (reads_bool b)|]. reflexivity.
  - eexists; split; [reflexivity|]. split.
    + apply reads_int; [unfold in_int32, in_int64 in *; lia|left; split; [reflexivity|exact I]|exact S0].
    + reflexivity.
  - eexists; split; [reflexivity|]. split.
    + apply reads_int; [exact I|right; split; [reflexivity|exact N]|exact S0].
    + reflexivity.
  - pose proof (plain_native d d Hp eq_refl) as E.
    exists (float_text d). split; [cbn [scalar_text]; rewrite E; reflexivity|].
    split; [apply reads_frac; auto|]. intros level kn. cbn [marshal_level scalar_text]. rewrite E. reflexivity.
  - pose proof (plain_native d d Hp eq_refl) as E.
    exists (float_text d). split; [cbn [scalar_text]; rewrite E; reflexivity|].
    split; [apply reads_frac; auto|]. intros level kn. cbn [marshal_level scalar_text]. rewrite E. reflexivity.
Qed.

(* ----- lists ----- *)

Lemma scans_sep : forall n, scans0 ("," +++ nl +++ lead n) [TComma; TNl].
Proof.
  intros n. apply (scans0_app "," _ [TComma] [TNl]); [exact scans0_comma|apply scans0_nllead].
Qed.

Lemma scans_elems : forall n arr l, Forall2 reads arr l -> l <> [] ->
  exists es ts, ttoks es (ts ++ [TNl; TRBrack]) /\ scans (join ("," +++ nl +++ lead n) arr) ts
    /\ Forall good_expr es
    /\ List.length es = List.length l
    /\ forall vs, Forall2 expr_value es vs -> Forall2 same l vs.
Proof.
  intros n arr l F. induction F as [|t v arr l (e & ts & He & Hs & Hg & Hv) F IH]; intros N; [congruence|].
  destruct arr as [|t2 arr].
  - inversion F; subst. exists [e], ts. split; [exact (tt_last e ts He)|]. split; [exact Hs|].
    split; [constructor; [exact Hg|constructor]|]. split; [reflexivity|].
    intros vs H. inversion H as [|? v' ? vs' Hv' Hvs]; subst. inversion Hvs; subst.
    constructor; [apply Hv; exact Hv'|constructor].
  - destruct IH as (es & ts' & H1 & H2 & H3 & H4 & H5).
    { intros ->. inversion F. }
    exists (e :: es), (ts ++ TComma :: TNl :: ts')%list. split.
    { rewrite <- app_assoc. cbn [app]. apply tt_more; [exact He|]. apply tt_nl. exact H1. }
    split.
    { change (join ("," +++ nl +++ lead n) (t :: t2 :: arr))
        with (t +++ ("," +++ nl +++ lead n) +++ join ("," +++ nl +++ lead n) (t2 :: arr)).
      change (TComma :: TNl :: ts') with ([TComma; TNl] ++ ts')%list. rewrite app_assoc.
      rewrite <- append_assoc. apply scans0_app_scans; [|exact H2].
      apply scans_app0; [exact Hs| |apply scans_sep]. right. right. left. reflexivity. }
    split; [constructor; assumption|]. split; [cbn; f_equal; exact H4|].
    intros vs H. inversion H as [|? v' ? vs' Hv' Hvs]; subst. constructor; [apply Hv; exact Hv'|].
    apply H5. exact Hvs.
Qed.

Lemma Forall_In : forall A (P : A -> Prop) l, Forall P l -> forall x, In x l -> P x.
Proof. intros A P l F. apply Forall_forall. exact F. Qed.

Lemma reads_list : forall level arr l, Forall2 reads arr l -> reads (list_text level arr) (NList l).
Proof.
  intros level arr l F. destruct l as [|v l].
  - inversion F; subst. exists (ETuple []), [TLBrack; TNl; TNl; TRBrack]. split.
    { constructor. constructor. constructor. constructor. }
    split.
    { apply scans0_scans. unfold list_text. cbn [join].
      apply (scans0_app "[" _ [TLBrack]); [exact scans0_lbrack|].
      apply (scans0_app nl _ [TNl] [TNl; TRBrack]); [exact scans0_nl|].
      apply (scans0_app (lead (S level)) _ [] [TNl; TRBrack]); [apply scans0_lead|].
      change ("" +++ (nl +++ lead level +++ "]")) with (nl +++ lead level +++ "]").
      apply (scans0_app nl _ [TNl] [TRBrack]); [exact scans0_nl|].
      apply (scans0_app (lead level) _ [] [TRBrack]); [apply scans0_lead|exact scans0_rbrack]. }
    split; [constructor; intros e []|].
    intros v' H. inversion H; subst; [exact same_empty|congruence].
  - destruct (scans_elems (S level) arr (v :: l) F) as (es & ts & H1 & H2 & H3 & H4 & H5); [discriminate|].
    exists (ETuple es), (TLBrack :: TNl :: ts ++ [TNl; TRBrack])%list. split.
    { constructor. constructor. exact H1. }
    split.
    { apply scans0_scans. unfold list_text.
      apply (scans0_app "[" _ [TLBrack]); [exact scans0_lbrack|].
      apply (scans0_app nl _ [TNl]); [exact scans0_nl|].
      apply (scans0_app (lead (S level)) _ []); [apply scans0_lead|].
      apply scans_app0; [exact H2|right; left; reflexivity|].
      apply (scans0_app nl _ [TNl] [TRBrack]); [exact scans0_nl|].
      apply (scans0_app (lead level) _ [] [TRBrack]); [apply scans0_lead|exact scans0_rbrack]. }
    split; [constructor; apply Forall_In; exact H3|].
    intros v' H. inversion H; subst; [discriminate|].
    apply same_list; [discriminate|]. apply H5. assumption.
Qed.

Lemma list_text_end : forall level arr, exists p, list_text level arr = p +++ "]".
Proof.
  intros level arr. eexists. unfold list_text. rewrite <- !append_assoc. reflexivity.
Qed.

(* ----- objects ----- *)

Definition line_reads (line : string) (kv : string * native) : Prop :=
  exists t, line = fst kv +++ " = " +++ t /\ good_key (fst kv) /\ reads t (snd kv).

Lemma scans_line : forall k t ts, ident k -> scans t ts ->
  scans (k +++ " = " +++ t) (TIdent k :: TEq :: ts).
Proof.
  intros k t ts K H.
  change (k +++ " = " +++ t) with (k +++ " " +++ "= " +++ t).
  rewrite <- append_assoc.
  apply (scans0_app_scans (k +++ " ") _ [TIdent k] (TEq :: ts)).
  - apply (scans_app0 k " " [TIdent k] []); [apply scans_ident; exact K|left; reflexivity|exact scans0_space].
  - apply (scans0_app_scans "= " _ [TEq] ts); [exact scans0_eq|exact H].
Qed.

Definition ended (ts : list token) : list token := (ts ++ [TNl])%list.

Lemma scans_lines : forall n arr tss, Forall2 scans arr tss -> arr <> [] ->
  scans0 (join (nl +++ lead n) arr +++ nl) (flat_map ended tss).
Proof.
  intros n arr tss F. induction F as [|t ts arr tss H F IH]; intros N; [congruence|].
  destruct arr as [|t2 arr].
  - inversion F; subst. cbn [join flat_map]. rewrite app_nil_r.
    apply scans_app0; [exact H|right; left; reflexivity|exact scans0_nl].
  - change (join (nl +++ lead n) (t :: t2 :: arr))
      with (t +++ (nl +++ lead n) +++ join (nl +++ lead n) (t2 :: arr)).
    rewrite !append_assoc. rewrite <- (append_assoc nl). rewrite <- append_assoc.
    cbn [flat_map]. apply scans0_app.
    + apply scans_app0; [exact H|right; left; reflexivity|apply scans0_nllead].
    + apply IH. discriminate.
Qed.

Lemma scans_block : forall level arr tss, Forall2 scans arr tss ->
  scans0 (block_text level arr)
    (TLBrace :: TNl :: (match arr with [] => [TNl] | _ => flat_map ended tss end) ++ [TRBrace]).
Proof.
  intros level arr tss F. unfold block_text.
  apply (scans0_app "{" _ [TLBrace]); [exact scans0_lbrace|].
  apply (scans0_app nl _ [TNl]); [exact scans0_nl|]. rewrite append_assoc.
  apply (scans0_app (lead (S level)) _ []); [apply scans0_lead|].
  assert (T : scans0 (lead level +++ "}") [TRBrace]).
  { apply (scans0_app (lead level) _ [] [TRBrace]); [apply scans0_lead|exact scans0_rbrace]. }
  destruct arr as [|t arr].
  - cbn [join]. change ("" +++ nl +++ lead level +++ "}") with (nl +++ lead level +++ "}").
    apply (scans0_app nl _ [TNl]); [exact scans0_nl|exact T].
  - rewrite <- (append_assoc _ nl). apply scans0_app; [|exact T].
    apply scans_lines; [exact F|discriminate].
Qed.

Lemma reads_obj : forall level arr m, Forall2 line_reads arr m -> NoDup (keys m) ->
  reads (block_text level arr) (NMap m).
Proof.
  intros level arr m F N.
  assert (X : exists es tss, Forall2 scans arr tss /\ otoks es (flat_map ended tss ++ [TRBrace])
            /\ keys es = keys m /\ (forall k e, In (k, e) es -> good_expr e)
            /\ Forall2 (fun a b => fst a = fst b /\ forall v', expr_value (snd a) v' -> same (snd b) v') es m).
  { clear N. induction F as [|line [k v] arr m (t & -> & Hk & e & ts & He & Hs & Hg & Hv) F IH].
    - exists [], []. repeat split; try constructor. intros k e [].
    - destruct IH as (es & tss & H1 & H2 & H3 & H4 & H5). cbn [fst snd] in *.
      exists ((k, e) :: es), ((TIdent k :: TEq :: ts) :: tss). split; [|split; [|split; [|split]]].
      + constructor; [|exact H1]. apply scans_line; [apply Hk|exact Hs].
      + cbn [flat_map]. unfold ended at 1. cbn [app]. rewrite <- !app_assoc. cbn [app].
        apply ot_more; [apply Hk|exact He|exact H2].
      + cbn. f_equal. exact H3.
      + intros k' e' [[= <- <-]|I]; [exact Hg|exact (H4 _ _ I)].
      + constructor; [split; [reflexivity|exact Hv]|exact H5]. }
  destruct X as (es & tss & H1 & H2 & H3 & H4 & H5).
  exists (EObj es).
  eexists. split; [|split; [apply scans0_scans; apply scans_block; exact H1|]].
  { constructor. destruct arr as [|t arr].
    - inversion H1; subst. inversion F; subst. inversion H5; subst.
      constructor. constructor. constructor.
    - constructor. exact H2. }
  split; [constructor; exact H4|].
  intros v' H. inversion H as [| | | | | | | |m0 m' N' L1 L2]; subst.
  assert (Le : forall k, last_entry k es = lookup k es).
  { intros k. unfold last_entry. apply lookup_perm.
    - unfold keys. rewrite map_rev. apply NoDup_rev. fold (keys es). rewrite H3. exact N.
    - apply Permutation_sym. apply Permutation_rev. }
  apply same_map; [exact N|exact N'| |].
  - intros k. rewrite L1, Le, !lookup_None, H3. reflexivity.
  - intros k v w Hv Hw.
    assert (Hl : exists e, lookup k es = Some e /\ forall v', expr_value e v' -> same v v').
    { clear -H5 Hv. induction H5 as [|[k1 e] [k2 x] es m [E R] F IH]; [discriminate|].
      cbn [fst snd] in *. subst k2. cbn [lookup] in *. destruct (eq_dec k k1); [|exact (IH Hv)].
      injection Hv as ->. exists e. split; [reflexivity|exact R]. }
    destruct Hl as (e & He & Hr). apply Hr. apply (L2 k); [rewrite Le; exact He|exact Hw].
Qed.

(* ----- expressions at every place ----- *)

Definition kn_ok (kn : option string) : Prop :=
  match kn with
  | None => True
  | Some s => s <> nmr /\ exists p c, s = p +++ str1 c /\ c <> " "%char /\ c <> "]"%char
  end.

Lemma last_char_snoc : forall p c, last_char (p +++ str1 c) = Some c.
Proof.
  induction p as [|a p IH]; intros c; [reflexivity|]. cbn [String.append last_char]. rewrite IH.
  destruct p; reflexivity.
Qed.
Lemma last_word_snoc : forall p acc c, c <> " "%char ->
  exists q, last_word acc (p +++ str1 c) = q +++ str1 c.
Proof.
  induction p as [|a p IH]; intros acc c N.
  - exists acc. cbn [String.append str1 last_word]. apply Ascii.eqb_neq in N. unfold str1.
    cbn [last_word]. rewrite N. reflexivity.
  - cbn [String.append last_word]. destruct (Ascii.eqb a " "); apply IH; exact N.
Qed.
Lemma kn_not_list : forall s level arr, kn_ok (Some s) -> String.eqb (last_word "" s) (list_text level arr) = false.
Proof.
  intros s level arr (_ & p & c & -> & N1 & N2). apply String.eqb_neq. intros E.
  destruct (last_word_snoc p "" c N1) as (q & Eq). rewrite Eq in E.
  destruct (list_text_end level arr) as (r & Er). rewrite Er in E.
  assert (X := f_equal last_char E). change "]" with (str1 "]") in X. rewrite !last_char_snoc in X. congruence.
Qed.
Lemma kn_not_nmr : forall kn, kn_ok kn -> is_nmr kn = false.
Proof.
  intros [s|] H; [|reflexivity]. cbn. apply String.eqb_neq. apply H.
Qed.

Lemma list_any : forall l, (forall v level, In v l -> supported InList v ->
    exists b, marshal_level v (S level) (Some nmr) = Ok b
      /\ reads (match b with Some t => t | None => "[]" end) v) ->
  (forall v, In v l -> supported InList v) -> forall level kn,
  exists arr, marshal_level (NList l) level kn = Ok (Some (list_text level arr))
    /\ reads (list_text level arr) (NList l).
Proof.
  intros l IH Su level kn. rewrite marshal_list.
  assert (X : exists arr, elems level l = Ok arr /\ Forall2 reads arr l).
  { clear kn. induction l as [|x l IHl]; [exists []; split; [reflexivity|constructor]|].
    destruct (IH x level (or_introl eq_refl) (Su x (or_introl eq_refl))) as (b & Eb & Rb).
    destruct IHl as (arr & Ea & Ra).
    - intros v lv I. apply IH. right. exact I.
    - intros v I. apply Su. right. exact I.
    - eexists. cbn [elems]. rewrite Eb, Ea. cbn [bindr]. split; [reflexivity|].
      constructor; assumption. }
  destruct X as (arr & Ea & Ra). exists arr. rewrite Ea. cbn [bindr]. split; [reflexivity|].
  apply reads_list. exact Ra.
Qed.

Lemma entries_reads : forall m level kn,
  (forall k v, In (k, v) m -> good_key k /\
     (v = NNil \/ (v <> NNil /\ exists t, entry level kn k v = Ok [k +++ " = " +++ t] /\ reads t v))) ->
  exists arr, entries level kn m = Ok arr /\ Forall2 line_reads arr m.
Proof.
  intros m level kn. induction m as [|[k v] m IH]; intros H.
  - exists []. split; [reflexivity|constructor].
  - destruct IH as (arr & Ea & Fa); [intros k' v' I; apply H; right; exact I|].
    destruct (H k v (or_introl eq_refl)) as (Hk & Hv). cbn [entries].
    assert (X : exists t, entry level kn k v = Ok [k +++ " = " +++ t] /\ reads t v).
    { destruct Hv as [->|(_ & X)]; [|exact X]. exists "null()". split; [reflexivity|exact reads_null]. }
    destruct X as (t & Et & Rt). rewrite Et, Ea. cbn [bindr app]. eexists. split; [reflexivity|].
    constructor; [|exact Fa]. exists t. cbn [fst snd]. auto.
Qed.

Lemma entry_eq : forall level kn k v, v <> NNil -> entry level kn k v =
  if is_nmr kn then do t <- direct_text level v; Ok [k +++ " = " +++ t] else loop_hash level k 0 kn v.
Proof. intros level kn k v N. destruct v; try reflexivity. congruence. Qed.

Lemma nil_dec : forall v, v = NNil \/ v <> NNil.
Proof. intros []; (left; reflexivity) || (right; discriminate). Qed.

Definition texts (v : native) : Prop :=
  (forall level, supported InList v -> exists b, marshal_level v (S level) (Some nmr) = Ok b
      /\ reads (match b with Some t => t | None => "[]" end) v)
  /\ (forall level, supported InObj v -> v <> NNil -> exists t, direct_text level v = Ok t /\ reads t v)
  /\ (forall level k kn p, supported p v -> p = InFlat \/ (p = InBody /\ not_map v) -> v <> NNil ->
       kn_ok kn -> exists t, loop_hash level k 0 kn v = Ok [k +++ " = " +++ t] /\ reads t v).

Lemma texts_scalar : forall v, scalar v -> texts v.
Proof.
  intros v S. destruct (scalar_reads v S) as (t & E1 & E2 & E3). split; [|split].
  - intros level Su. exists (Some t). rewrite E3. split; [|exact E2].
    destruct (go_zero v) eqn:G; [|reflexivity]. exfalso.
    inversion Su as [p v0 _ Z| | | | | | | |]; subst; try (inversion S; fail).
    apply (Z eq_refl). unfold zero_scalar.
    destruct S as [s Q|b|z I|z I N|d [Hp _]|d [Hp _]]; cbn in G.
    + destruct s; [tauto|discriminate].
    + destruct b; [discriminate|tauto].
    + destruct z; [tauto|discriminate..].
    + destruct z; [tauto|discriminate..].
    + lia.
    + lia.
  - intros level _ _. exists t. unfold direct_text. rewrite E1. split; [reflexivity|exact E2].
  - intros level k kn p _ _ _ _. exists t. split; [|exact E2].
    destruct S; cbn [loop_hash hash_kind is_hash_all Nat.leb andb]; rewrite E1; reflexivity.
Qed.

Definition leaf (v : native) : Prop :=
  match v with NNil | NMap _ | NNilList | NList _ => False | _ => True end.
Lemma texts_leaf : forall v, leaf v -> texts v.
Proof.
  intros v L.
  assert (X : forall p, supported p v -> scalar v).
  { intros p H. inversion H; subst; try contradiction; assumption. }
  split; [|split].
  - intros level Su. apply (texts_scalar v (X _ Su)). exact Su.
  - intros level Su. apply (texts_scalar v (X _ Su)). exact Su.
  - intros level k kn p Su. apply (texts_scalar v (X _ Su)). exact Su.
Qed.

Lemma expr_text : forall v, texts v.
Proof.
  induction v as [|s|b|z|z|d| |d| |m IH| |l IH] using native_ind'; try (apply texts_leaf; exact I).
  - split; [|split].
    + intros level H. inversion H as [p v S Z| | | | | | | |]; subst; [inversion S|congruence].
    + intros level _ N. congruence.
    + intros level k kn p _ _ N. congruence.
  - split; [|split].
    + intros level Su. inversion Su as [p v S Z| | | |m' N H| | | |]; subst; [inversion S|].
      rewrite marshal_map_S.
      destruct (entries_reads m (S level) (Some nmr)) as (arr & Ea & Fa).
      { intros k v I. destruct (H k v I) as (Hk & Hv). split; [exact Hk|].
        destruct (nil_dec v) as [->|Nv]; [left; reflexivity|right]. split; [exact Nv|].
        destruct (IH k v I) as (_ & B & _). destruct (B (S level) Hv Nv) as (t & Et & Rt).
        exists t. rewrite entry_eq by exact Nv. change (is_nmr (Some nmr)) with true. cbn iota.
        rewrite Et. split; [reflexivity|exact Rt]. }
      rewrite Ea. cbn [bindr]. eexists. split; [reflexivity|]. apply reads_obj; assumption.
    + intros level Su _. inversion Su as [p v S Z| | | | |m' N H| | |]; subst; [inversion S|].
      unfold direct_text. cbn [scalar_text]. rewrite marshal_map_S.
      destruct (entries_reads m (S level) None) as (arr & Ea & Fa).
      { intros k v I. destruct (H k v I) as (Hk & Hv). split; [exact Hk|].
        destruct (nil_dec v) as [->|Nv]; [left; reflexivity|right]. split; [exact Nv|].
        destruct (IH k v I) as (_ & _ & C).
        destruct (C (S level) k None InFlat Hv (or_introl eq_refl) Nv Logic.I) as (t & Et & Rt).
        exists t. rewrite entry_eq by exact Nv. cbn [is_nmr].
        rewrite Et. split; [reflexivity|exact Rt]. }
      rewrite Ea. cbn [bindr]. eexists. split; [reflexivity|]. apply reads_obj; assumption.
    + intros level k kn p Su [->|[-> X]] _ _; [|destruct (X m); congruence].
      inversion Su as [p v S Z| | | | | | | |]; subst. inversion S.
  - split; [|split].
    + intros level _. exists None. split; [reflexivity|exact reads_empty].
    + intros level Su _. inversion Su as [p v S Z| | | | | | | |]; subst. inversion S.
    + intros level k kn p Su [->|[-> X]] _ _; inversion Su as [p v S Z| | | | | | | |]; subst; inversion S.
  - assert (El : forall p, supported p (NList l) -> forall v, In v l -> supported InList v).
    { intros p Su. inversion Su as [p' v S Z| |p' l' H| | | | | |]; subst; [inversion S|exact H]. }
    assert (Hl := list_any l (fun v level I => proj1 (IH v I) level)).
    split; [|split].
    + intros level Su. destruct (Hl (El _ Su) (S level) (Some nmr)) as (arr & Ea & Ra).
      exists (Some (list_text (S level) arr)). split; [exact Ea|exact Ra].
    + intros level Su _. destruct (Hl (El _ Su) (S level) None) as (arr & Ea & Ra).
      eexists. unfold direct_text. cbn [scalar_text]. rewrite Ea. split; [reflexivity|exact Ra].
    + intros level k kn p Su _ _ K. destruct (Hl (El _ Su) (S level) None) as (arr & Ea & Ra).
      exists (list_text (S level) arr). split; [|exact Ra].
      cbn [loop_hash hash_kind is_hash_all Nat.leb andb scalar_text]. rewrite Ea. cbn [bindr].
      destruct kn as [s|]; [|reflexivity]. rewrite (kn_not_list s (S level) arr K). reflexivity.
Qed.

(* ----- bodies ----- *)

Definition line_item (line : string) (i : item) : Prop :=
  exists r ts, line = item_name i +++ r /\ ident (item_name i) /\ scans line ts /\ itoks i ts /\ good_item i.

Lemma btoks_items : forall n its tss, Forall2 itoks its tss -> NoDup (attr_names its) ->
  btoks n its (flat_map ended tss ++ (if n then [TRBrace] else [])).
Proof.
  intros n its tss F. induction F as [|i ts its tss H F IH]; intros N; [constructor|].
  cbn [flat_map]. unfold ended at 1. rewrite <- !app_assoc. cbn [app]. apply bt_item.
  - exact H.
  - apply IH. destruct i; cbn in N; [inversion N; assumption|exact N].
  - intros k I. destruct i; cbn in I; [|contradiction]. destruct I as [->|[]].
    cbn in N. inversion N; assumption.
Qed.

Lemma line_items_toks : forall arr its, Forall2 line_item arr its ->
  exists tss, Forall2 scans arr tss /\ Forall2 itoks its tss.
Proof.
  intros arr its F. induction F as [|line i arr its (r & ts & _ & _ & H1 & H2 & _) F (tss & F1 & F2)].
  - exists []. split; constructor.
  - exists (ts :: tss). split; constructor; assumption.
Qed.

Lemma block_toks : forall level arr its, Forall2 line_item arr its -> NoDup (attr_names its) ->
  exists ts, scans0 (block_text level arr) (TLBrace :: TNl :: ts) /\ btoks true its (TNl :: ts).
Proof.
  intros level arr its F N. destruct (line_items_toks arr its F) as (tss & F1 & F2).
  eexists. split; [apply scans_block; exact F1|].
  constructor. destruct arr as [|t arr].
  - inversion F; subst. constructor. exact (bt_end true).
  - exact (btoks_items true its tss F2 N).
Qed.

Lemma label_scans : forall name toks l, scans name toks -> quotable l ->
  scans0 (label_name name l) (toks ++ [TStr l]).
Proof.
  intros name toks l H Q. unfold label_name. apply scans_app0; [exact H|left; reflexivity|].
  apply (scans0_app " " _ [] [TStr l]); [exact scans0_space|apply scans0_quoted; exact Q].
Qed.

(* The name of a block with its labels. *)
Definition head_ok (name : string) (k : string) (ls : list string) : Prop :=
  ident k /\ scans name (TIdent k :: map TStr ls) /\ kn_ok (Some name) /\ exists r, name = k +++ r.

Lemma head_name : forall k, body_key k -> head_ok k k [].
Proof.
  intros k (I & N). split; [exact I|]. split; [apply scans_ident; exact I|]. split.
  - split; [exact N|].
    assert (X : forall c w, ident_char c = true -> all_chars ident_char w = true ->
              exists p d, String c w = p +++ str1 d /\ ident_char d = true).
    { intros c w. revert c. induction w as [|a w IH]; intros c Hc Hw.
      - exists "", c. auto.
      - cbn [all_chars] in Hw. apply andb_true_iff in Hw. destruct Hw as [Ha Hw].
        destruct (IH a Ha Hw) as (p & d & E & Hd). exists (String c p), d. rewrite E. auto. }
    destruct k as [|c w]; [contradiction|]. destruct I as [I1 I2].
    destruct (X c w) as (p & d & E & Hd).
    + unfold ident_char. rewrite I1. reflexivity.
    + exact I2.
    + exists p, d. split; [exact E|]. split; intros ->; discriminate.
  - exists "". rewrite append_nil_r. reflexivity.
Qed.
Lemma head_label : forall name k ls l, head_ok name k ls -> quotable l ->
  head_ok (label_name name l) k (ls ++ [l]).
Proof.
  intros name k ls l (I & H & K & r & E) Q. split; [exact I|]. split.
  - apply scans0_scans. rewrite map_app. apply (label_scans name (TIdent k :: map TStr ls) l H Q).
  - assert (Ends : label_name name l = (name +++ " " +++ quote +++ l) +++ str1 """").
    { unfold label_name. rewrite !append_assoc. reflexivity. }
    split; [split|].
    + intros X. rewrite Ends in X. assert (Y := f_equal last_char X). rewrite last_char_snoc in Y. discriminate.
    + exists (name +++ " " +++ quote +++ l), """"%char. split; [exact Ends|]. split; discriminate.
    + exists (r +++ " " +++ quote +++ l +++ quote). unfold label_name. rewrite E, !append_assoc. reflexivity.
Qed.

Definition body_text (m : list (string * native)) : Prop :=
  body_map m -> forall level kn, kn_ok kn -> exists arr its,
    entries level kn m = Ok arr /\ Forall2 line_item arr its /\ NoDup (attr_names its)
    /\ (m <> [] -> arr <> []) /\ forall v', body_value its v' -> same (NMap m) v'.

(* One block. *)
Lemma block_item : forall m name k ls level depth kn, body_text m -> body_map m ->
  hash_kind depth (NMap m) = 1 -> head_ok name k ls -> List.length ls <= 2 ->
  exists line its, loop_hash level name depth kn (NMap m) = Ok [line]
    /\ line_item line (IBlock k ls its) /\ forall v', body_value its v' -> same (NMap m) v'.
Proof.
  intros m name k ls level depth kn B M K (I & Hs & Hk & r & E) L.
  destruct (B M (S level) (Some name) Hk) as (arr & its & E1 & F & N & _ & V).
  rewrite loop_hash_1 by exact K. rewrite marshal_map_S, E1. cbn [bindr].
  eexists. exists its. split; [reflexivity|]. split; [|exact V].
  destruct (block_toks (S level) arr its F N) as (ts & T1 & T2).
  cbn [bytes].
  exists (r +++ " " +++ block_text (S level) arr), (TIdent k :: map TStr ls ++ TLBrace :: TNl :: ts)%list.
  cbn [item_name]. split; [rewrite E, append_assoc; reflexivity|]. split; [exact I|]. split.
  - apply scans0_scans. apply (scans_app0 name _ (TIdent k :: map TStr ls)); [exact Hs|left; reflexivity|].
    apply (scans0_app " " _ []); [exact scans0_space|exact T1].
  - split; [constructor; exact T2|]. constructor; [exact L|].
    clear -F. induction F as [|line i arr its (? & ? & _ & _ & _ & _ & G) F IH]; intros j J; [destruct J|].
    destruct J as [<-|J]; [exact G|exact (IH j J)].
Qed.

Definition entry_ok (level : nat) (kn : option string) (k : string) (v : native) : Prop :=
  exists lines its, entry level kn k v = Ok lines /\ lines <> [] /\ Forall2 line_item lines its
    /\ (forall i, In i its -> item_name i = k) /\ NoDup (attr_names its)
    /\ forall v', entry_value its v' -> same v v'.

Lemma entry_attr : forall level kn k v t, body_key k -> reads t v ->
  entry level kn k v = Ok [k +++ " = " +++ t] -> entry_ok level kn k v.
Proof.
  intros level kn k v t K (e & ts & He & Hs & Hg & Hv) E.
  exists [k +++ " = " +++ t], [IAttr k e]. split; [exact E|]. split; [discriminate|]. split.
  { constructor; [|constructor]. exists (" = " +++ t), (TIdent k :: TEq :: ts). split; [reflexivity|].
    split; [apply K|]. split; [apply scans_line; [apply K|exact Hs]|]. split; constructor; assumption. }
  split; [intros i [<-|[]]; reflexivity|]. split; [cbn; repeat constructor; intros []|].
  intros v' H. inversion H; subst; cbn in *; try discriminate; try congruence; try lia. auto.
Qed.

Lemma entry_block : forall level kn k m, kn_ok kn -> body_key k -> body_text m -> body_map m ->
  hash_kind 0 (NMap m) = 1 -> entry_ok level kn k (NMap m).
Proof.
  intros level kn k m Kn K B M H.
  destruct (block_item m k k [] level 0 kn B M H (head_name k K)) as (line & its & E & F & V); [cbn; lia|].
  exists [line], [IBlock k [] its]. split.
  { cbn [entry]. rewrite (kn_not_nmr kn Kn). exact E. }
  split; [discriminate|]. split; [constructor; [exact F|constructor]|].
  split; [intros i [<-|[]]; reflexivity|]. split; [constructor|].
  intros v' H'. inversion H'; subst; cbn in *; try discriminate; try congruence; try lia.
  match goal with X : [_] = [_] |- _ => injection X as -> end. auto.
Qed.

(* Blocks with one label under a name, or with a second label under a name and a first. *)
Lemma each_blocks : forall level name k ls depth m, head_ok name k ls -> List.length ls <= 1 ->
  (forall key v, In (key, v) m -> quotable key /\ exists m', v = NMap m' /\ body_map m' /\ body_text m'
     /\ hash_kind (S depth) (NMap m') = 1) ->
  exists lines bs, each_hash level name depth m = Ok lines
    /\ Forall2 line_item lines (map (fun b => IBlock k (ls ++ [fst b]) (snd b)) bs)
    /\ keys bs = keys m /\ List.length lines = List.length m
    /\ Forall2 (fun b kv => fst b = fst kv /\ forall v', body_value (snd b) v' -> same (snd kv) v') bs m.
Proof.
  intros level name k ls depth m Hd L. induction m as [|[key v] m IH]; intros H.
  - exists [], []. repeat split; constructor.
  - destruct IH as (lines & bs & E1 & F & K & Ln & V); [intros key' v' I; apply H; right; exact I|].
    destruct (H key v (or_introl eq_refl)) as (Q & m' & -> & M' & B' & K').
    destruct (block_item m' (label_name name key) k (ls ++ [key]) level (S depth) None B' M' K'
                (head_label name k ls key Hd Q)) as (line & its & E & Fl & Vl).
    { rewrite app_length. cbn. lia. }
    exists (line :: lines), ((key, its) :: bs). cbn [each_hash]. rewrite E, E1. cbn [bindr app].
    split; [reflexivity|]. split; [cbn [map fst snd]; constructor; assumption|].
    split; [cbn; f_equal; exact K|]. split; [cbn; f_equal; exact Ln|].
    constructor; [split; [reflexivity|exact Vl]|exact V].
Qed.

Lemma last_entry_nodup : forall A (l : list (string * A)) k, NoDup (keys l) -> last_entry k l = lookup k l.
Proof.
  intros A l k N. unfold last_entry. symmetry. apply lookup_perm; [exact N|]. apply Permutation_rev.
Qed.

Lemma Forall2_lookup : forall A B (R : A -> B -> Prop) (l : list (string * A)) (m : list (string * B)) k,
  Forall2 (fun a b => fst a = fst b /\ R (snd a) (snd b)) l m ->
  match lookup k l, lookup k m with Some a, Some b => R a b | None, None => True | _, _ => False end.
Proof.
  intros A B R l m k F. induction F as [|[k1 a] [k2 b] l m [E H] F IH]; [exact I|].
  cbn [fst snd] in *. subst k2. cbn [lookup]. destruct (eq_dec k k1); [exact H|exact IH].
Qed.

Lemma second_same : forall bs m v', NoDup (keys m) ->
  Forall2 (fun b kv => fst b = fst kv /\ forall v', body_value (snd b) v' -> same (snd kv) v') bs m ->
  second_value bs v' -> same (NMap m) v'.
Proof.
  intros bs m v' N F H. inversion H as [bs' m' N' L1 L2]; subst.
  assert (Kb : keys bs = keys m).
  { clear -F. induction F as [|a b l m [E _] F IH]; [reflexivity|]. cbn. f_equal; assumption. }
  assert (Nb : NoDup (keys bs)) by (rewrite Kb; exact N).
  apply same_map; [exact N|exact N'| |].
  - intros k. rewrite L1, (last_entry_nodup _ bs k Nb), !lookup_None, Kb. reflexivity.
  - intros k v w Hv Hw.
    assert (X := Forall2_lookup _ _ (fun b v => forall v', body_value b v' -> same v v') bs m k F).
    rewrite Hv in X. destruct (lookup k bs) as [b|] eqn:Eb; [|contradiction].
    apply X. apply (L2 k); [rewrite last_entry_nodup by exact Nb; exact Eb|exact Hw].
Qed.

Lemma labelled1_map : forall k bs,
  labelled1 (map (fun b : string * list item => IBlock k ([] ++ [fst b]) (snd b)) bs) = bs.
Proof. intros k bs. induction bs as [|[l b] bs IH]; [reflexivity|]. cbn. f_equal. exact IH. Qed.
Lemma labelled2_map1 : forall k bs,
  labelled2 (map (fun b : string * list item => IBlock k ([] ++ [fst b]) (snd b)) bs) = [].
Proof. intros k bs. induction bs as [|[l b] bs IH]; [reflexivity|]. cbn. exact IH. Qed.
Lemma unlabelled_map1 : forall k bs,
  unlabelled (map (fun b : string * list item => IBlock k ([] ++ [fst b]) (snd b)) bs) = [].
Proof. intros k bs. induction bs as [|[l b] bs IH]; [reflexivity|]. cbn. exact IH. Qed.
Lemma attr_names_blocks : forall A (f : A -> item) l, (forall a, match f a with IBlock _ _ _ => True | _ => False end) ->
  attr_names (map f l) = [].
Proof.
  intros A f l H. induction l as [|a l IH]; [reflexivity|]. cbn. specialize (H a).
  destruct (f a); [contradiction|]. exact IH.
Qed.

Lemma entry_block1 : forall level kn k m, kn_ok kn -> body_key k -> m <> [] -> NoDup (keys m) ->
  (forall key v, In (key, v) m -> quotable key /\ exists m', v = NMap m' /\ body_map m' /\ body_text m'
     /\ hash_kind 1 (NMap m') = 1) -> entry_ok level kn k (NMap m).
Proof.
  intros level kn k m Kn K Ne N H.
  assert (H2 : hash_kind 0 (NMap m) = 2).
  { unfold hash_kind. cbn [Nat.leb andb]. cbn [is_hash_all]. destruct m as [|kv m]; [congruence|].
    replace (forallb _ (kv :: m)) with true; [reflexivity|]. symmetry. apply forallb_forall.
    intros [key v] I. destruct (H key v I) as (_ & m' & -> & _). reflexivity. }
  destruct (each_blocks level k k [] 0 m (head_name k K)) as (lines & bs & E & F & Kb & Ln & V).
  { cbn. lia. }
  { exact H. }
  exists lines, (map (fun b => IBlock k ([] ++ [fst b]) (snd b)) bs). split.
  { cbn [entry]. rewrite (kn_not_nmr kn Kn), loop_hash_2 by exact H2. exact E. }
  split; [intros ->; destruct m; [congruence|discriminate]|]. split; [exact F|].
  split; [intros i I; apply in_map_iff in I; destruct I as (b & <- & _); reflexivity|].
  split; [rewrite attr_names_blocks by (intros a; exact I); constructor|].
  intros v' Hv. assert (Nbs : bs <> []).
  { intros ->. destruct m; [congruence|discriminate]. }
  inversion Hv as [k0 e v0 _ Eq|its b v0 _ X|its vs _ X|its mm _ _ N' L1 L2|its mm X]; subst.
  - destruct bs; [congruence|discriminate].
  - rewrite labelled1_map in X. congruence.
  - rewrite labelled1_map in X. congruence.
  - rewrite labelled1_map in L1, L2. apply second_same with bs; [exact N|exact V|].
    constructor; assumption.
  - rewrite labelled2_map1 in X. congruence.
Qed.

(* Two labels. *)
Definition block2 (k : string) (x : string * list (string * list item)) : list item :=
  map (fun b => IBlock k ([fst x] ++ [fst b]) (snd b)) (snd x).

Lemma labelled2_block2 : forall k xs, labelled2 (flat_map (block2 k) xs)
  = flat_map (fun x => map (fun b => (fst x, b)) (snd x)) xs.
Proof.
  intros k xs. induction xs as [|[l bs] xs IH]; [reflexivity|]. cbn [flat_map block2 fst snd].
  rewrite <- IH. generalize (flat_map (block2 k) xs) as tl. clear. intros tl. unfold block2. cbn [fst snd].
  induction bs as [|[l2 b] bs IH]; [reflexivity|]. cbn. f_equal. exact IH.
Qed.
Lemma under_flat : forall l xs, NoDup (keys xs) ->
  under l (flat_map (fun x : string * list (string * list item) => map (fun b => (fst x, b)) (snd x)) xs)
  = match lookup l xs with Some bs => bs | None => [] end.
Proof.
  assert (U : forall l a b, under l (a ++ b) = (under l a ++ under l b)%list).
  { intros l a b. unfold under. rewrite filter_app, map_app. reflexivity. }
  assert (U1 : forall l l0 bs, under l (map (fun b : string * list item => (l0, b)) bs)
               = if string_dec l0 l then bs else []).
  { intros l l0 bs. unfold under. induction bs as [|b bs IH]; cbn [map filter fst].
    - destruct (string_dec l0 l); reflexivity.
    - destruct (string_dec l0 l); cbn [map snd]; [f_equal|]; exact IH. }
  intros l xs. induction xs as [|[l0 bs] xs IH]; intros N; [reflexivity|].
  cbn in N. inversion N as [|? ? N1 N2]; subst. cbn [flat_map fst snd lookup]. rewrite U, U1, IH by exact N2.
  change (@eq_dec string EqDec_string l l0) with (string_dec l l0).
  destruct (string_dec l0 l) as [->|Ne].
  - destruct (string_dec l l) as [_|]; [|congruence].
    replace (lookup l xs) with (@None (list (string * list item))); [apply app_nil_r|].
    symmetry. apply lookup_None. exact N1.
  - destruct (string_dec l l0); [congruence|reflexivity].
Qed.
Lemma labelled1_block2 : forall k xs, labelled1 (flat_map (block2 k) xs) = [].
Proof.
  intros k xs. induction xs as [|[l bs] xs IH]; [reflexivity|]. cbn [flat_map].
  unfold block2 at 1. cbn [fst snd]. induction bs as [|[l2 b] bs IHb]; [exact IH|]. cbn. exact IHb.
Qed.
Lemma unlabelled_block2 : forall k xs, unlabelled (flat_map (block2 k) xs) = [].
Proof.
  intros k xs. induction xs as [|[l bs] xs IH]; [reflexivity|]. cbn [flat_map].
  unfold block2 at 1. cbn [fst snd]. induction bs as [|[l2 b] bs IHb]; [exact IH|]. cbn. exact IHb.
Qed.
Lemma attr_block2 : forall k xs, attr_names (flat_map (block2 k) xs) = [].
Proof.
  intros k xs. induction xs as [|[l bs] xs IH]; [reflexivity|]. cbn [flat_map].
  unfold block2 at 1. cbn [fst snd]. induction bs as [|[l2 b] bs IHb]; [exact IH|]. cbn. exact IHb.
Qed.

Definition sub_ok (b : list item) (v : native) : Prop := forall v', body_value b v' -> same v v'.

Lemma entry_block2 : forall level kn k m, kn_ok kn -> body_key k -> m <> [] -> NoDup (keys m) ->
  (forall key v, In (key, v) m -> quotable key /\ exists m', v = NMap m' /\ m' <> [] /\ NoDup (keys m')
     /\ forall key' v', In (key', v') m' -> quotable key' /\ exists m'', v' = NMap m'' /\ body_map m''
          /\ body_text m'') -> entry_ok level kn k (NMap m).
Proof.
  intros level kn k m Kn K Ne N H.
  assert (All : forall m : list (string * native), m <> [] -> (forall key v, In (key, v) m -> exists m', v = NMap m') ->
            is_hash_all (NMap m) = 2).
  { clear. intros m Ne H. cbn [is_hash_all]. destruct m as [|kv m]; [congruence|].
    replace (forallb _ (kv :: m)) with true; [reflexivity|]. symmetry. apply forallb_forall.
    intros [key v] I. destruct (H key v I) as (m' & ->). reflexivity. }
  assert (H2 : hash_kind 0 (NMap m) = 2).
  { unfold hash_kind. rewrite All; [reflexivity|exact Ne|].
    intros key v I. destruct (H key v I) as (_ & m' & -> & _). exists m'. reflexivity. }
  assert (X : exists lines xs, each_hash level k 0 m = Ok lines
     /\ Forall2 line_item lines (flat_map (block2 k) xs)
     /\ List.length m <= List.length lines
     /\ Forall2 (fun x kv => fst x = fst kv /\ snd x <> [] /\ exists m', snd kv = NMap m' /\ NoDup (keys m')
          /\ Forall2 (fun b kv => fst b = fst kv /\ sub_ok (snd b) (snd kv)) (snd x) m') xs m).
  { clear H2 Ne N. induction m as [|[key v] m IH].
    - exists [], []. repeat split; constructor.
    - destruct IH as (lines & xs & E1 & F1 & L1 & V1); [intros key' v' I; apply H; right; exact I|].
      destruct (H key v (or_introl eq_refl)) as (Q & m' & -> & Ne' & N' & H').
      assert (K2 : hash_kind 1 (NMap m') = 2).
      { unfold hash_kind. rewrite All; [reflexivity|exact Ne'|].
        intros key' v' I. destruct (H' key' v' I) as (_ & m'' & -> & _). exists m''. reflexivity. }
      destruct (each_blocks level (label_name k key) k [key] 1 m'
                  (head_label k k [] key (head_name k K) Q)) as (lines' & bs & E2 & F2 & Kb & Ln & V2).
      { cbn. lia. }
      { intros key' v' I. destruct (H' key' v' I) as (Q' & m'' & -> & M'' & B''). split; [exact Q'|].
        exists m''. split; [reflexivity|]. split; [exact M''|]. split; [exact B''|].
        unfold hash_kind. cbn [Nat.leb andb]. destruct (Nat.eqb (is_hash_all (NMap m'')) 2) eqn:E3; [reflexivity|].
        cbn [is_hash_all] in *. destruct m''; [reflexivity|].
        destruct (forallb _ _); [discriminate|reflexivity]. }
      exists (lines' ++ lines)%list, ((key, bs) :: xs). cbn [each_hash].
      rewrite loop_hash_2 by exact K2. rewrite E2, E1. cbn [bindr].
      split; [reflexivity|]. split; [cbn [flat_map]; apply Forall2_app; [exact F2|exact F1]|].
      split; [rewrite app_length, Ln; destruct m'; [congruence|cbn; lia]|].
      constructor; [|exact V1]. cbn [fst snd]. split; [reflexivity|].
      split; [intros ->; destruct m'; [congruence|discriminate]|].
      exists m'. split; [reflexivity|]. split; [exact N'|]. exact V2. }
  destruct X as (lines & xs & E & F & Ln & V).
  exists lines, (flat_map (block2 k) xs). split.
  { cbn [entry]. rewrite (kn_not_nmr kn Kn), loop_hash_2 by exact H2. exact E. }
  split; [intros ->; destruct m; [congruence|cbn in Ln; lia]|]. split; [exact F|].
  split.
  { intros i I. apply in_flat_map in I. destruct I as (x & _ & I).
    apply in_map_iff in I. destruct I as (b & <- & _). reflexivity. }
  split; [rewrite attr_block2; constructor|].
  intros v' Hv.
  assert (Kx : keys xs = keys m).
  { clear -V. induction V as [|a b l m [E0 _] F IH]; [reflexivity|]. cbn. f_equal; assumption. }
  assert (Nx : NoDup (keys xs)) by (rewrite Kx; exact N).
  assert (N2 : labelled2 (flat_map (block2 k) xs) <> []).
  { rewrite labelled2_block2. destruct V as [|[l bs] b xs m (_ & Nb & _) V]; [congruence|].
    cbn [flat_map fst snd] in *. destruct bs; [congruence|discriminate]. }
  inversion Hv as [k0 e v0 _ Eq|its b v0 X|its vs X|its mm X|its mm _ N' L1 L2]; subst; try congruence.
  - exfalso. apply N2. reflexivity.
  - rewrite labelled2_block2 in L1, L2.
    assert (R : forall l, match lookup l xs, lookup l m with
       | Some bs, Some v => bs <> [] /\ exists m', v = NMap m' /\ NoDup (keys m')
          /\ Forall2 (fun b kv => fst b = fst kv /\ sub_ok (snd b) (snd kv)) bs m'
       | None, None => True | _, _ => False end).
    { intros l. exact (Forall2_lookup _ _ (fun bs v => bs <> [] /\ exists m', v = NMap m' /\ NoDup (keys m')
          /\ Forall2 (fun b kv => fst b = fst kv /\ sub_ok (snd b) (snd kv)) bs m') xs m l V). }
    apply same_map; [exact N|exact N'| |].
    + intros l. rewrite L1, under_flat by exact Nx. specialize (R l).
      destruct (lookup l xs) as [bs|], (lookup l m); try contradiction; [|tauto].
      destruct R as (R & _). split; [discriminate|congruence].
    + intros l v w Hl Hw. specialize (L2 l w Hw). rewrite under_flat in L2 by exact Nx. specialize (R l).
      rewrite Hl in R. destruct (lookup l xs) as [bs|]; [|contradiction].
      destruct R as (_ & m' & -> & Nm & Fm). exact (second_same bs m' w Nm Fm L2).
Qed.

(* ----- assembling a body ----- *)

Lemma named_app : forall k a b, named k (a ++ b) = (named k a ++ named k b)%list.
Proof. intros. unfold named. apply filter_app. Qed.
Lemma named_all : forall k its, (forall i, In i its -> item_name i = k) -> named k its = its.
Proof.
  intros k its H. unfold named. induction its as [|i its IH]; [reflexivity|]. cbn [filter].
  destruct (string_dec (item_name i) k) as [_|Ne]; [|exfalso; apply Ne; apply H; left; reflexivity].
  f_equal. apply IH. intros j J. apply H. right. exact J.
Qed.
Lemma named_none : forall k its, (forall i, In i its -> item_name i <> k) -> named k its = [].
Proof.
  intros k its H. unfold named. induction its as [|i its IH]; [reflexivity|]. cbn [filter].
  destruct (string_dec (item_name i) k) as [E|_]; [exfalso; exact (H i (or_introl eq_refl) E)|].
  apply IH. intros j J. apply H. right. exact J.
Qed.
Lemma attr_names_in : forall k its, In k (attr_names its) -> exists i, In i its /\ item_name i = k.
Proof.
  intros k its H. unfold attr_names in H. apply in_flat_map in H. destruct H as (i & I & H).
  exists i. split; [exact I|]. destruct i; cbn in H; [|contradiction]. destruct H as [->|[]]. reflexivity.
Qed.

Lemma NoDup_app_intro : forall A (a b : list A), NoDup a -> NoDup b ->
  (forall x, In x a -> In x b -> False) -> NoDup (a ++ b).
Proof.
  intros A a b Na Nb D. induction a as [|x a IH]; [exact Nb|]. inversion Na; subst. cbn [app].
  constructor.
  - intros I. apply in_app_iff in I. destruct I as [I|I]; [contradiction|].
    exact (D x (or_introl eq_refl) I).
  - apply IH; [assumption|]. intros y Y1 Y2. exact (D y (or_intror Y1) Y2).
Qed.

Lemma gather : forall level kn m, NoDup (keys m) ->
  (forall k v, In (k, v) m -> entry_ok level kn k v) ->
  exists arr its, entries level kn m = Ok arr /\ Forall2 line_item arr its /\ NoDup (attr_names its)
    /\ (m <> [] -> arr <> [])
    /\ (forall i, In i its -> In (item_name i) (keys m))
    /\ (forall k, In k (keys m) -> named k its <> [])
    /\ (forall k v, lookup k m = Some v -> forall v', entry_value (named k its) v' -> same v v').
Proof.
  intros level kn m. induction m as [|[k v] m IH]; intros N H.
  - exists [], []. repeat split; try constructor; try congruence; intros ? []; discriminate.
  - cbn in N. inversion N as [|? ? N1 N2]; subst.
    destruct IH as (arr & its & E & F & Na & _ & In1 & In2 & V); [exact N2|intros k' v' I; apply H; right; exact I|].
    destruct (H k v (or_introl eq_refl)) as (lines & its' & E' & Nl & F' & K' & Na' & V').
    exists (lines ++ arr)%list, (its' ++ its)%list. cbn [entries]. rewrite E', E. cbn [bindr].
    assert (Nk : named k its = []).
    { apply named_none. intros i I <-. apply N1. apply In1. exact I. }
    assert (Nk' : forall k', k' <> k -> named k' its' = []).
    { intros k' Ne. apply named_none. intros i I X. apply Ne. rewrite <- X. apply K'. exact I. }
    split; [reflexivity|]. split; [apply Forall2_app; assumption|]. split.
    { unfold attr_names. rewrite flat_map_app. fold (attr_names its') (attr_names its).
      apply NoDup_app_intro; [exact Na'|exact Na|]. intros x X1 X2.
      apply attr_names_in in X1. destruct X1 as (i & I & <-). rewrite (K' i I) in X2.
      apply attr_names_in in X2. destruct X2 as (j & J & X). apply N1. rewrite <- X. apply In1. exact J. }
    split; [intros _ X; apply app_eq_nil in X; tauto|]. split.
    { intros i I. apply in_app_iff in I. destruct I as [I|I]; [left; symmetry; apply K'; exact I|].
      right. apply In1. exact I. }
    split.
    { intros k' [<-|I].
      - cbn [fst]. rewrite named_app, Nk, app_nil_r, named_all by exact K'. intros ->.
        inversion F'; subst. congruence.
      - rewrite named_app. intros X. apply app_eq_nil in X. exact (In2 k' I (proj2 X)). }
    intros k' v0 L v' Hv. rewrite named_app in Hv. cbn [lookup] in L.
    destruct (eq_dec k' k) as [->|Ne].
    + injection L as <-. rewrite Nk, app_nil_r, named_all in Hv by exact K'. apply V'. exact Hv.
    + rewrite Nk' in Hv by exact Ne. apply (V k'); assumption.
Qed.

(* ----- every body ----- *)

Fixpoint nsize (v : native) : nat :=
  match v with
  | NMap m => S (list_sum (map (fun kv => nsize (snd kv)) m))
  | NList l => S (list_sum (map nsize l))
  | _ => 1
  end.
Lemma nsize_in : forall m k v, In (k, v) m -> nsize v < nsize (NMap m).
Proof.
  intros m k v H. cbn [nsize]. induction m as [|[k0 v0] m IH]; [destruct H|]. cbn [map list_sum fold_right snd].
  destruct H as [[= -> ->]|H]; [unfold list_sum; cbn; lia|]. specialize (IH H).
  unfold list_sum in *. cbn [map fold_right]. lia.
Qed.

Lemma hash_kind_block : forall d m, (m = [] \/ exists k v, In (k, v) m /\ not_map v) ->
  hash_kind d (NMap m) = 1.
Proof.
  intros d m H. assert (E : is_hash_all (NMap m) = 1).
  { cbn [is_hash_all]. destruct H as [->|(k & v & I & Nm)]; [reflexivity|].
    destruct m as [|kv m]; [reflexivity|]. replace (forallb _ (kv :: m)) with false; [reflexivity|].
    symmetry. apply not_true_is_false. intros X. rewrite forallb_forall in X. specialize (X _ I).
    cbn [snd] in X. destruct v; try discriminate; [destruct (Nm []); congruence|destruct (Nm m0); congruence]. }
  unfold hash_kind. rewrite E. destruct (Nat.leb 2 d); reflexivity.
Qed.

Theorem body_text_all : forall m, body_text m.
Proof.
  assert (A : forall n m, nsize (NMap m) < n -> body_text m).
  { induction n as [|n IH]; intros m L; [lia|]. intros M level kn Kn.
    destruct M as [m N H].
    assert (Sub : forall k m', In (k, NMap m') m -> body_text m').
    { intros k m' I. apply IH. apply nsize_in in I. lia. }
    assert (Sub2 : forall k m' k' m'', In (k, NMap m') m -> In (k', NMap m'') m' -> body_text m'').
    { intros k m' k' m'' I I'. apply IH. apply nsize_in in I. apply nsize_in in I'. lia. }
    assert (Sub3 : forall k m' k' m'' k3 m3, In (k, NMap m') m -> In (k', NMap m'') m' ->
              In (k3, NMap m3) m'' -> body_text m3).
    { intros k m' k' m'' k3 m3 I I' I3. apply IH. apply nsize_in in I. apply nsize_in in I'.
      apply nsize_in in I3. lia. }
    destruct (gather level kn m N) as (arr & its & E & F & Na & Ne & In1 & In2 & V).
    - intros k v I. destruct (H k v I) as (K & Su).
      assert (Plain : not_map v -> entry_ok level kn k v).
      { intros Nm. destruct (nil_dec v) as [->|Nv].
        - apply entry_attr with "null()"; [exact K|exact reads_null|reflexivity].
        - destruct (expr_text v) as (_ & _ & C).
          destruct (C level k kn InBody Su) as (t & Et & Rt); [right; auto|exact Nv|exact Kn|].
          apply entry_attr with t; [exact K|exact Rt|].
          rewrite entry_eq by exact Nv. rewrite (kn_not_nmr kn Kn). exact Et. }
      inversion Su as [p v0 S Z|p Hp|p l Hl| | | |m' M' B'|m' Nm' N' H'|m' Nm' N' H']; subst.
      + apply Plain. intros m'. destruct S; split; discriminate.
      + apply Plain. intros m'. split; discriminate.
      + apply Plain. intros m'. split; discriminate.
      + apply entry_block; [exact Kn|exact K|exact (Sub _ _ I)|exact M'|]. apply hash_kind_block. exact B'.
      + apply entry_block1; [exact Kn|exact K|exact Nm'|exact N'|].
        intros key v I'. destruct (H' key v I') as (Q & m'' & -> & M'' & B''). split; [exact Q|].
        exists m''. split; [reflexivity|]. split; [exact M''|]. split; [exact (Sub2 _ _ _ _ I I')|].
        apply hash_kind_block. exact B''.
      + apply entry_block2; [exact Kn|exact K|exact Nm'|exact N'|].
        intros key v I'. destruct (H' key v I') as (Q & m'' & -> & Ne'' & N'' & H''). split; [exact Q|].
        exists m''. split; [reflexivity|]. split; [exact Ne''|]. split; [exact N''|].
        intros k3 v3 I3. destruct (H'' k3 v3 I3) as (Q3 & m3 & -> & M3). split; [exact Q3|].
        exists m3. split; [reflexivity|]. split; [exact M3|]. exact (Sub3 _ _ _ _ _ _ I I' I3).
    - exists arr, its. split; [exact E|]. split; [exact F|]. split; [exact Na|]. split; [exact Ne|].
      intros v' Hv. inversion Hv as [its' obj Few N' L1 L2]; subst.
      apply same_map; [exact N|exact N'| |].
      + intros k. rewrite L1, lookup_None. split.
        * intros Nk. apply named_none. intros i I <-. apply Nk. apply In1. exact I.
        * intros X Hk. exact (In2 k Hk X).
      + intros k v w Hv' Hw. apply (V k v Hv'). apply L2. exact Hw. }
  intros m. exact (A (S (nsize (NMap m))) m (Nat.lt_succ_diag_r _)).
Qed.

(* ----- the document ----- *)

Definition doc_text (arr : list string) : string :=
  nl +++ (lead 1 +++ join (nl +++ lead 1) arr) +++ nl.

Lemma ident_head : forall k r, ident k -> exists c w, k +++ r = String c w /\ space_char c = false /\ c <> "{"%char.
Proof.
  intros [|c k] r H; [contradiction|]. destruct H as [H _]. exists c, (k +++ r). split; [reflexivity|].
  assert (X : nat_of_ascii c <> 32 /\ (nat_of_ascii c < 9 \/ 13 < nat_of_ascii c) /\ nat_of_ascii c <> 123).
  { unfold ident_start, letter_char, char_in in H.
    apply orb_true_iff in H. destruct H as [H|H].
    - apply orb_true_iff in H. destruct H as [H|H]; apply andb_true_iff in H; destruct H as [H1 H2];
        apply Nat.leb_le in H1; apply Nat.leb_le in H2; lia.
    - apply Ascii.eqb_eq in H. subst c. cbn. lia. }
  destruct X as (X1 & X2 & X3). split.
  - unfold space_char, char_in. apply orb_false_iff. split.
    + apply Ascii.eqb_neq. intros ->. apply X1. reflexivity.
    + apply andb_false_iff. rewrite !Nat.leb_gt. lia.
  - intros ->. apply X3. reflexivity.
Qed.

Lemma trim_right_head : forall c w, space_char c = false -> exists w', trim_right (String c w) = String c w'.
Proof.
  intros c w H. cbn [trim_right]. rewrite H. destruct (trim_right w); eexists; reflexivity.
Qed.

Lemma doc_parses : forall arr its, Forall2 line_item arr its -> arr <> [] -> NoDup (attr_names its) ->
  parse_config (doc_text arr) = Ok its.
Proof.
  intros arr its F Ne N.
  destruct (line_items_toks arr its F) as (tss & F1 & F2).
  assert (Sc : scan LNone (doc_text arr) = Ok (TNl :: flat_map ended tss)).
  { assert (X : scans0 (doc_text arr) (TNl :: flat_map ended tss)).
    { unfold doc_text. apply (scans0_app nl _ [TNl]); [exact scans0_nl|]. rewrite append_assoc.
      apply (scans0_app (lead 1) _ []); [apply scans0_lead|]. apply scans_lines; assumption. }
    specialize (X ""). rewrite append_nil_r in X. rewrite X. cbn [scan push bindr]. rewrite app_nil_r. reflexivity. }
  unfold parse_config. rewrite (plain_scan _ _ _ Sc). cbn [bindr].
  assert (B : btoks false its (TNl :: flat_map ended tss)).
  { constructor. assert (X := btoks_items false its tss F2 N). rewrite app_nil_r in X. exact X. }
  assert (P := proj1 parse_body false its _ B [] (2 * List.length (TNl :: flat_map ended tss) + 2)
                 (fun _ => eq_refl) ltac:(lia)).
  rewrite app_nil_r in P. rewrite P. reflexivity.
Qed.

Lemma doc_reads : forall arr its, Forall2 line_item arr its -> arr <> [] -> NoDup (attr_names its) ->
  decode_map (doc_text arr) = decode_body its.
Proof.
  intros arr its F Ne N.
  assert (T : exists c w, trim (doc_text arr) = String c w /\ c <> "{"%char).
  { destruct F as [|line i arr its (r & ts & -> & I & _) F]; [congruence|].
    assert (J : exists r', join (nl +++ lead 1) ((item_name i +++ r) :: arr) = item_name i +++ r').
    { destruct arr as [|t arr].
      - exists r. reflexivity.
      - eexists. change (join (nl +++ lead 1) ((item_name i +++ r) :: t :: arr))
          with ((item_name i +++ r) +++ (nl +++ lead 1) +++ join (nl +++ lead 1) (t :: arr)).
        rewrite append_assoc. reflexivity. }
    destruct J as (r' & J). unfold doc_text. rewrite J.
    destruct (ident_head (item_name i) (r' +++ nl) I) as (c & w & E & Hs & Hc).
    exists c. rewrite !append_assoc, E. unfold trim, nl. cbn [lead String.append].
    cbn [trim_left]. change (space_char "010") with true. change (space_char " ") with true. cbn iota.
    rewrite Hs. destruct (trim_right_head c w Hs) as (w' & ->). exists w'. split; [reflexivity|exact Hc]. }
  destruct T as (c & w & T & Hc). unfold decode_map. rewrite T.
  apply Ascii.eqb_neq in Hc. rewrite Hc. cbn [andb].
  rewrite (doc_parses arr its F Ne N). reflexivity.
Qed.

Lemma doc_lines : forall m, m <> [] -> body_map m -> exists arr its,
  marshal (NMap m) = Ok (Some (doc_text arr)) /\ parse_config (doc_text arr) = Ok its.
Proof.
  intros m Ne M. destruct (body_text_all m M 0 None I) as (arr & its & E & F & N & Na & _).
  exists arr, its. split; [|apply doc_parses; auto].
  unfold marshal. rewrite marshal_map, E. cbn [bindr Nat.eqb]. unfold doc_text.
  change (lead 0) with "". rewrite append_nil_r. reflexivity.
Qed.

Theorem doc_round_trip : forall m, m <> [] -> body_map m ->
  exists t v, marshal (NMap m) = Ok (Some t) /\ decode_map t = Ok v /\ same (NMap m) v.
Proof.
  intros m Ne M. destruct (body_text_all m M 0 None I) as (arr & its & E & F & N & Na & V).
  destruct (decode_complete its) as (v & Hv).
  { clear -F. induction F as [|line i arr its (? & ? & _ & _ & _ & _ & G) F IH]; intros j J; [destruct J|].
    destruct J as [<-|J]; [exact G|exact (IH j J)]. }
  assert (R := doc_reads arr its F (Na Ne) N).
  exists (doc_text arr), v. split; [|split].
  - unfold marshal. rewrite marshal_map, E. cbn [bindr Nat.eqb]. unfold doc_text.
    change (lead 0) with "". rewrite append_nil_r. reflexivity.
  - rewrite R. exact Hv.
  - apply V. apply decode_sound; [|exact Hv].
    destruct (line_items_toks arr its F) as (tss & F1 & F2).
    assert (B : btoks false its (flat_map ended tss)).
    { assert (X := btoks_items false its tss F2 N). rewrite app_nil_r in X. exact X. }
    assert (P := proj1 parse_body false its _ B [] _ (fun _ => eq_refl) (le_n _)).
    rewrite app_nil_r in P. exact (pbody_distinct _ _ _ _ _ P).
Qed.
