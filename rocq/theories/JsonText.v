(* Proofs: encoding/json reads a JSON text as the data it says. *)

From Verif Require Import Base CtyModel CtySpec CtyProofs HclModel HclSpec HclProofs JsonModel JsonSpec JsonProofs HclGrammar HclLex.
From Coq Require Import Lia.
Local Open Scope nat_scope.

(* ----- characters ----- *)

Lemma blank_cons : forall c s, blank (String c s) -> json_space c = true /\ blank s.
Proof.
  intros c s H. split; [|intros i d G; exact (H (S i) d G)]. specialize (H 0 c eq_refl). cbn in H.
  destruct H as [<-|[<-|[<-|[<-|[]]]]]; reflexivity.
Qed.
Lemma blank_scans : forall b, blank b -> jscans0 b [].
Proof.
  induction b as [|c b IH]; intros H s; [cbn [String.append]; destruct (jscan JNone s); reflexivity|].
  apply blank_cons in H. destruct H as [E H]. cbn [String.append jscan jstep]. unfold jstep0. rewrite E. cbn [bindr fst snd].
  rewrite (IH H s). destruct (jscan JNone s); reflexivity.
Qed.
Lemma blank_end : forall b s, blank b -> jend_first s -> jend_first (b +++ s).
Proof. intros [|c b] s H D; [exact D|]. apply blank_cons in H. right. right. right. exact (proj1 H). Qed.
Lemma scans_blank : forall t ts b, jscans t ts -> blank b -> jscans (t +++ b) ts.
Proof.
  intros t ts b H B s D. rewrite append_assoc, H by (apply blank_end; assumption). rewrite (blank_scans b B). destruct (jscan JNone s); reflexivity.
Qed.
Lemma blank_before : forall t ts b, jscans t ts -> blank b -> jscans (b +++ t) ts.
Proof. intros t ts b H B. apply (jscans0_app_scans b t [] ts); [apply blank_scans; exact B|exact H]. Qed.

Lemma hex_read : forall c n, hex_is c n -> hex_value c = Some n /\ n < 16.
Proof.
  intros c n H. assert (L : n < 16).
  { destruct (Nat.lt_ge_cases n 16) as [L|L]; [exact L|]. exfalso.
    do 16 (destruct n as [|n]; [lia|]). destruct H as [H|H]; cbn in H; destruct n; discriminate H. }
  split; [|exact L]. do 16 (destruct n as [|n]; [destruct H as [H|H]; cbn in H; injection H as <-; reflexivity|]). lia.
Qed.

Lemma char_reads : forall t c acc, char_text t c -> jsteps (JInStr acc) t = Some (JInStr (acc +++ str1 c)).
Proof.
  intros t c acc H. destruct H as [c R Q B|e c I|a b x y c A B E L].
  - cbn [jsteps jstep]. destruct (Ascii.eqb_spec c """"); [congruence|]. destruct (Ascii.eqb_spec c "\"); [congruence|].
    replace (nat_of_ascii c <? 32) with false by (symmetry; apply Nat.ltb_ge; lia).
    replace (nat_of_ascii c <? 128) with true by (symmetry; apply Nat.ltb_lt; lia). reflexivity.
  - cbn in I. decompose [or] I; try contradiction; match goal with H : (_, _) = (_, _) |- _ => injection H as <- <- end; reflexivity.
  - destruct (hex_read _ _ A) as [A1 A2]. destruct (hex_read _ _ B) as [B1 B2]. rewrite jsteps_app.
    change (jsteps (JInStr acc) "\u00") with (Some (JHex acc 2 0)). cbn [jsteps]. unfold jstep. rewrite A1.
    change (Nat.eqb 2 3) with false. cbn iota. rewrite B1. change (Nat.eqb 3 3) with true. cbn iota. change (0 * 16 + x) with x. rewrite <- E.
    rewrite (proj2 (Nat.ltb_lt _ _) L), ascii_nat_embedding. reflexivity.
Qed.
Lemma chars_read : forall t s, chars_text t s -> forall acc, jsteps (JInStr acc) t = Some (JInStr (acc +++ s)).
Proof.
  induction 1 as [|t c r s C R IH]; intro acc; [rewrite append_nil_r; reflexivity|].
  rewrite jsteps_app, (char_reads t c acc C), IH, append_assoc. reflexivity.
Qed.
Lemma string_scans : forall t s, string_text t s -> jscans0 t [JStr s].
Proof.
  intros t s (b & -> & C) r. rewrite !append_assoc. unfold quote at 1. cbn [String.append jscan].
  change (jstep JNone """") with (Ok (@nil jtoken, JInStr "")). cbn [bindr fst snd].
  rewrite (jsteps_scan _ _ _ _ (chars_read b s C "")). unfold quote. cbn [String.append jscan].
  change (jstep (JInStr s) """") with (Ok ([JStr s], JNone)). cbn [bindr fst snd]. destruct (jscan JNone r); reflexivity.
Qed.

(* ----- maps ----- *)

Definition puts (l m : list (string * native)) : list (string * native) := fold_left (fun m kv => insert (fst kv) (snd kv) m) l m.
Lemma puts_nodup : forall l m, NoDup (keys m) -> NoDup (keys (puts l m)).
Proof. induction l as [|[k v] l IH]; intros m N; [exact N|]. apply IH. apply NoDup_keys_insert. exact N. Qed.
Lemma puts_lookup : forall l m k, lookup k (puts l m) = match lookup k (rev l) with Some v => Some v | None => lookup k m end.
Proof.
  induction l as [|[k' v] l IH]; intros m k; [reflexivity|]. cbn [puts fold_left fst snd]. fold (puts l (insert k' v m)). rewrite IH. cbn [rev].
  rewrite lookup_app. destruct (lookup k (rev l)); [reflexivity|]. cbn [lookup].
  destruct (eq_dec k k') as [->|N]; [rewrite lookup_insert_eq; reflexivity|rewrite lookup_insert_ne by exact N; reflexivity].
Qed.
Definition member_view (a b : string * native) : Prop := fst a = fst b /\ json_view (snd a) (snd b).
Lemma view_lookup : forall l l', Forall2 member_view l l' -> forall k,
  (lookup k l = None <-> lookup k l' = None) /\ forall v v', lookup k l = Some v -> lookup k l' = Some v' -> json_view v v'.
Proof.
  induction 1 as [|[k1 v1] [k2 v2] l l' [E V] F IH]; intro k; [split; [tauto|discriminate]|]. cbn [fst snd] in *. subst k2. cbn [lookup].
  destruct (eq_dec k k1) as [->|N]; [|apply IH]. split; [split; discriminate|]. intros v v' A B. congruence.
Qed.
Lemma Forall2_rev' : forall A B (R : A -> B -> Prop) l l', Forall2 R l l' -> Forall2 R (rev l) (rev l').
Proof. intros A B R l l' F. induction F; cbn [rev]; [constructor|]. apply Forall2_app; [assumption|constructor; [assumption|constructor]]. Qed.

(* ----- values ----- *)

Definition open_head (ts : list jtoken) : Prop := match ts with [] => False | t :: _ => t <> JSym "]" /\ t <> JSym "}" end.
Definition value_read (t : string) (v : native) : Prop := exists ts w, jscans t ts /\ open_head ts /\
  (forall n r, List.length ts <= n -> jvalue n (ts ++ r) = Ok (w, r)) /\ json_view v w.
Definition elems_are_read (t : string) (l : list native) : Prop := exists ts ws, jscans0 (t +++ "]") ts /\ open_head ts /\
  (forall n r, List.length ts <= n -> jelems n (ts ++ r) = Ok (ws, r)) /\ Forall2 json_view l ws.
Definition members_are_read (t : string) (l : list (string * native)) : Prop := exists ts ws, jscans0 (t +++ "}") ts /\ open_head ts /\
  (forall n r m, List.length ts <= n -> jmembers n m (ts ++ r) = Ok (puts ws m, r)) /\ Forall2 member_view l ws.
Definition member_is_read (t : string) (k : string) (v : native) : Prop := exists ts w, jscans t (JStr k :: JSym ":" :: ts) /\
  (forall n r, List.length ts <= n -> jvalue n (ts ++ r) = Ok (w, r)) /\ json_view v w.

Scheme json_text_mut := Minimality for json_text Sort Prop
  with elems_text_mut := Minimality for elems_text Sort Prop
  with members_text_mut := Minimality for members_text Sort Prop
  with member_text_mut := Minimality for member_text Sort Prop.

Lemma word_read : forall w v, jsteps JNone w = Some (JInWord w) -> (forall n r, jvalue (S n) (JWord w :: r) = Ok (v, r)) -> json_view v v -> value_read w v.
Proof.
  intros w v S R V. exists [JWord w], v. split; [apply jscans_word; exact S|]. split; [split; discriminate|]. split; [|exact V].
  intros n r L. cbn in L. destruct n as [|n]; [lia|]. apply R.
Qed.

(* ----- numbers ----- *)

Lemma float64_range : forall z, in_float64 z <-> exists d, round_to float64 (mkD z 0) = Some d.
Proof.
  intro z. unfold in_float64, round_to. cbn [num den prec last_place bound float64]. cbv zeta. rewrite !Z.add_0_r.
  assert (P : (0 <= Z.abs z)%Z) by lia. set (a := Z.abs z) in *. clearbody a.
  set (k := Z.log2 a). assert (K0 : (0 <= k)%Z) by apply Z.log2_nonneg.
  replace (Z.max (k + 1 - 53) (-1074)) with (k - 52)%Z by lia.
  assert (Small : (k < 1023)%Z -> (round_mantissa a (k - 52) < 2 ^ 1024)%Z /\ (a < 2 ^ 1023)%Z).
  { intro L. assert (A : (a < 2 ^ 1023)%Z).
    { destruct (Z.eq_dec a 0) as [->|N]; [reflexivity|]. apply Z.lt_le_trans with (2 ^ Z.succ k)%Z; [apply Z.log2_spec; lia|apply Z.pow_le_mono_r; lia]. }
    split; [|exact A]. assert (R := round_mantissa_le a (k - 52) P). assert (B : (2 ^ Z.max 0 (k - 52) <= 2 ^ 1022)%Z) by (apply Z.pow_le_mono_r; lia).
    assert (X : (2 ^ 1023 + 2 ^ 1022 < 2 ^ 1024)%Z) by reflexivity. lia. }
  assert (T : (2 ^ 1023 < 2 ^ 1024 - 2 ^ 970)%Z) by reflexivity.
  destruct (Z.lt_ge_cases k 1023) as [L|L].
  { destruct (Small L) as [S1 S2]. split; [|intros _; lia]. intros _. replace (2 ^ 1024 <=? _)%Z with false by (symmetry; apply Z.leb_gt; exact S1). eexists. reflexivity. }
  clear Small. assert (N : (0 < a)%Z) by (destruct (Z.eq_dec a 0) as [E|]; [unfold k in L; rewrite E in L; cbn in L; lia|lia]).
  assert (Q := Z.log2_spec a N). fold k in Q. unfold round_mantissa. replace (k - 52 <=? 0)%Z with false by (symmetry; apply Z.leb_gt; lia). cbv zeta.
  set (p := (2 ^ (k - 52))%Z) in *. assert (Pp : (0 < p)%Z) by (apply Z.pow_pos_nonneg; lia).
  assert (D := Z.div_mod a p). assert (M := Z.mod_pos_bound a p Pp).
  assert (E : (2 ^ k = 2 ^ 52 * p)%Z) by (unfold p; rewrite <- Z.pow_add_r by lia; f_equal; lia).
  assert (Qd : (2 ^ 52 <= a / p)%Z) by (apply Z.div_le_lower_bound; lia).
  destruct (Z.eq_dec k 1023) as [K|K].
  - assert (Ep : p = (2 * 2 ^ 970)%Z) by (unfold p; rewrite K; reflexivity). assert (F : (2 ^ 1024 = 2 ^ 53 * p)%Z) by (unfold p; rewrite K; reflexivity).
    assert (Q2 : (a < 2 ^ 1024)%Z) by (rewrite K in Q; exact (proj2 Q)). rewrite F in *. clearbody p.
    assert (U : (a / p < 2 ^ 53)%Z) by (apply Z.div_lt_upper_bound; lia).
    assert (O : (a / p = 2 ^ 53 - 1)%Z -> Z.odd (a / p) = true) by (intros ->; reflexivity).
    set (q := (a / p)%Z) in *. set (r := (a mod p)%Z) in *. set (h := (2 ^ 970)%Z) in *. change (2 ^ 53)%Z with 9007199254740992%Z in *. change (2 ^ 52)%Z with 4503599627370496%Z in *. clearbody q r h. specialize (D ltac:(lia)).
    destruct (Z.eq_dec q 9007199254740991) as [Eq|Nq].
    + specialize (O ltac:(lia)). rewrite O, andb_true_r. subst q. destruct (Z.ltb_spec p (2 * r)) as [B|B]; cbn [orb].
      * split; [intro; nia|]. intros (d & H). replace (9007199254740992 * p <=? _)%Z with true in H by (symmetry; apply Z.leb_le; nia). discriminate H.
      * destruct (Z.eqb_spec (2 * r) p) as [B'|B'].
        -- split; [intro; nia|]. intros (d & H). replace (9007199254740992 * p <=? _)%Z with true in H by (symmetry; apply Z.leb_le; nia). discriminate H.
        -- split; [|intros _; nia]. intros _. replace (9007199254740992 * p <=? _)%Z with false by (symmetry; apply Z.leb_gt; nia). eexists. reflexivity.
    + split; [|intros _; nia]. intros _. destruct (_ || _); replace (9007199254740992 * p <=? _)%Z with false by (symmetry; apply Z.leb_gt; nia); eexists; reflexivity.
  - assert (G : (2 ^ 1024 <= 2 ^ k)%Z) by (apply Z.pow_le_mono_r; lia). assert (H9 : (0 < 2 ^ 970)%Z) by reflexivity.
    split; [intro; lia|]. intros (d & H).
    assert (X : (2 ^ 1024 <= (if (p <? 2 * (a mod p)) || ((2 * (a mod p) =? p) && Z.odd (a / p)) then a / p + 1 else a / p) * p)%Z).
    { apply Z.le_trans with (2 ^ k)%Z; [exact G|]. rewrite E. apply Z.mul_le_mono_nonneg_r; [lia|]. destruct (_ || _); lia. }
    apply Z.leb_le in X. rewrite X in H. discriminate H.
Qed.
Lemma num_steps : forall z t z' neg, digits z t z' -> jsteps (JInNum neg z true) t = Some (JInNum neg z' true).
Proof.
  intros z t z' neg H. induction H as [|z c d t z' D H IH]; [reflexivity|]. cbn [jsteps jstep]. rewrite (digit_not c d D), <- (digit_val c d D). exact IH.
Qed.
Lemma whole_steps : forall t z, whole_text t z -> exists more, jsteps JNone t = Some (JInNum false z more) /\ jsteps JMinus t = Some (JInNum true z more).
Proof.
  intros t z (N & D & Z). inversion D as [|z0 c d t' z' Dc H]; subst; [contradiction|]. cbn [jsteps jstep].
  assert (E : jstep0 c = Ok ([], JInNum false (digit_value c) (negb (Ascii.eqb c "0")))).
  { assert (I := digit_not c d Dc). clear - I. destruct c as [[] [] [] [] [] [] [] []]; try reflexivity; discriminate. }
  rewrite E, (digit_not c d Dc). rewrite (digit_val c d Dc) in H. destruct (Ascii.eqb_spec c "0") as [->|Nc].
  - rewrite (Z t' eq_refl) in *. inversion H; subst. exists false. split; reflexivity.
  - cbn [negb]. exists true. cbn [Z.mul Z.add] in H. split; apply num_steps; exact H.
Qed.
Lemma number_scans : forall t z, number_text t z -> jscans t [JNum z].
Proof.
  intros t z H s E. destruct H as [H|(u & y & -> & H & ->)]; destruct (whole_steps _ _ H) as (more & S1 & S2).
  - rewrite (jsteps_scan _ _ _ s S1), (jscan_num_end false z more s E). reflexivity.
  - cbn [String.append jscan]. change (jstep JNone "-") with (Ok (@nil jtoken, JMinus)). cbn [bindr fst snd].
    rewrite (jsteps_scan _ _ _ s S2), (jscan_num_end true y more s E). destruct (jscan JNone s); reflexivity.
Qed.
Lemma number_value : forall z, in_float64 z -> json_number z = Ok (float_of z).
Proof. intros z H. unfold json_number, float_of. apply float64_range in H. destruct H as (d & E). rewrite E. reflexivity. Qed.

Theorem texts_read : forall t v, json_text t v -> value_read t v.
Proof.
  apply (json_text_mut value_read elems_are_read members_are_read member_is_read).
  - apply word_read; [reflexivity|reflexivity|constructor].
  - apply word_read; [reflexivity|reflexivity|constructor].
  - apply word_read; [reflexivity|reflexivity|constructor].
  - intros t s H. exists [JStr s], (NStr s). split; [apply jscans0_scans, string_scans, H|]. split; [split; discriminate|]. split; [|constructor].
    intros n r L. cbn in L. destruct n; [lia|]. reflexivity.
  - intros t z T H. exists [JNum z], (float_of z). split; [apply number_scans; exact T|]. split; [split; discriminate|]. split.
    + intros n r L. cbn in L. destruct n; [lia|]. cbn [app jvalue]. rewrite (number_value z H). reflexivity.
    + destruct (proj1 (float64_range z) H) as (d & E). unfold float_of. rewrite E. constructor; [apply (round_to_representable float64 (mkD z 0) d good64 E)|exact (round_to_nearest float64 (mkD z 0) d good64 E)].
  - intros b B. exists [JSym "["; JSym "]"], (NList []). split; [|split; [split; discriminate|split]].
    + apply jscans0_scans. apply (jscans0_app "[" (b +++ "]") [JSym "["] [JSym "]"]); [apply (jscans_sym "[" eq_refl)|].
      apply (jscans0_app b "]" [] [JSym "]"]); [apply blank_scans; exact B|apply (jscans_sym "]" eq_refl)].
    + intros n r L. cbn in L. destruct n; [lia|]. reflexivity.
    + constructor. constructor.
  - intros t l _ (ts & ws & S & O & R & V). exists (JSym "[" :: ts), (NList ws). split; [|split; [split; discriminate|split]].
    + apply jscans0_scans. apply (jscans0_app "[" (t +++ "]") [JSym "["] ts); [apply (jscans_sym "[" eq_refl)|exact S].
    + intros n r L. cbn [List.length] in L. destruct n as [|n]; [lia|]. specialize (R n r ltac:(lia)). destruct ts as [|x ts]; [destruct O|].
      cbn [app] in *. cbn [jvalue].
      assert (X : (do p <- jelems n (x :: ts ++ r)%list; Ok (NList (fst p), snd p)) = Ok (NList ws, r)) by (rewrite R; reflexivity).
      destruct O as [O1 O2]. destruct x as [| | |c]; try exact X. destruct c as [[] [] [] [] [] [] [] []]; try exact X. congruence.
    + constructor. exact V.
  - intros b B. exists [JSym "{"; JSym "}"], (NMap []). split; [|split; [split; discriminate|split]].
    + apply jscans0_scans. apply (jscans0_app "{" (b +++ "}") [JSym "{"] [JSym "}"]); [apply (jscans_sym "{" eq_refl)|].
      apply (jscans0_app b "}" [] [JSym "}"]); [apply blank_scans; exact B|apply (jscans_sym "}" eq_refl)].
    + intros n r L. cbn in L. destruct n; [lia|]. reflexivity.
    + constructor; [constructor|constructor|tauto|discriminate].
  - intros t l m _ (ts & ws & S & O & R & V) N Lk. exists (JSym "{" :: ts), (NMap (puts ws [])). split; [|split; [split; discriminate|split]].
    + apply jscans0_scans. apply (jscans0_app "{" (t +++ "}") [JSym "{"] ts); [apply (jscans_sym "{" eq_refl)|exact S].
    + intros n r L. cbn [List.length] in L. destruct n as [|n]; [lia|]. specialize (R n r [] ltac:(lia)). destruct ts as [|x ts]; [destruct O|].
      cbn [app] in *. cbn [jvalue].
      assert (X : (do p <- jmembers n [] (x :: ts ++ r)%list; Ok (NMap (fst p), snd p)) = Ok (NMap (puts ws []), r)) by (rewrite R; reflexivity).
      destruct O as [O1 O2]. destruct x as [| | |c]; try exact X. destruct c as [[] [] [] [] [] [] [] []]; try exact X. congruence.
    + apply Forall2_rev' in V. assert (E : forall k, lookup k (puts ws []) = lookup k (rev ws)).
      { intro k. rewrite puts_lookup. destruct (lookup k (rev ws)); reflexivity. }
      constructor; [exact N|apply puts_nodup; constructor| |]; intros k; rewrite E, Lk; apply (view_lookup _ _ V k).
  - intros b t v b' B _ (ts & w & S & O & R & V) B'. exists (ts ++ [JSym "]"])%list, [w]. split; [|split; [destruct ts; [destruct O|exact O]|split]].
    + apply (jscans_app0 (b +++ t +++ b') "]" ts [JSym "]"]); [|right; left; reflexivity|discriminate|apply (jscans_sym "]" eq_refl)].
      apply blank_before; [apply scans_blank; [exact S|exact B']|exact B].
    + intros n r L. rewrite app_length in L. cbn in L. destruct n as [|n]; [lia|]. cbn [jelems]. rewrite <- app_assoc, R by lia. reflexivity.
    + constructor; [exact V|constructor].
  - intros b t v b' r l B _ (ts & w & S & O & R & V) B' _ (ts' & ws & S' & O' & R' & V').
    exists (ts ++ JSym "," :: ts')%list, (w :: ws). split; [|split; [destruct ts; [destruct O|exact O]|split]].
    + rewrite <- (append_assoc t b' ("," +++ r)), <- (append_assoc b (t +++ b') ("," +++ r)), (append_assoc (b +++ t +++ b')).
      apply (jscans_app0 (b +++ t +++ b') (("," +++ r) +++ "]") ts (JSym "," :: ts')); [|left; reflexivity|discriminate|].
      * apply blank_before; [apply scans_blank; [exact S|exact B']|exact B].
      * rewrite append_assoc. apply (jscans0_app "," _ [JSym ","] ts'); [apply (jscans_sym "," eq_refl)|exact S'].
    + intros n s L. rewrite app_length in L. cbn [List.length] in L. destruct n as [|n]; [lia|]. cbn [jelems]. rewrite <- app_assoc, R by lia.
      cbn [bindr fst snd app]. rewrite R' by lia. reflexivity.
    + constructor; assumption.
  - intros t k v _ (ts & w & S & R & V). exists (JStr k :: JSym ":" :: ts ++ [JSym "}"])%list, [(k, w)]. split; [|split; [split; discriminate|split]].
    + apply (jscans_app0 t "}" (JStr k :: JSym ":" :: ts) [JSym "}"]); [exact S|right; right; left; reflexivity|discriminate|apply (jscans_sym "}" eq_refl)].
    + intros n r m L. cbn [List.length] in L. rewrite app_length in L. cbn in L. destruct n as [|n]; [lia|]. cbn [app jmembers].
      rewrite <- app_assoc, R by lia. reflexivity.
    + constructor; [split; [reflexivity|exact V]|constructor].
  - intros t k v r l _ (ts & w & S & R & V) _ (ts' & ws & S' & O' & R' & V').
    exists (JStr k :: JSym ":" :: ts ++ JSym "," :: ts')%list, ((k, w) :: ws). split; [|split; [split; discriminate|split]].
    + rewrite append_assoc. apply (jscans_app0 t (("," +++ r) +++ "}") (JStr k :: JSym ":" :: ts) (JSym "," :: ts')); [exact S|left; reflexivity|discriminate|].
      rewrite append_assoc. apply (jscans0_app "," _ [JSym ","] ts'); [apply (jscans_sym "," eq_refl)|exact S'].
    + intros n s m L. cbn [List.length] in L. rewrite app_length in L. cbn [List.length] in L. destruct n as [|n]; [lia|]. cbn [app jmembers].
      rewrite <- app_assoc, R by lia. cbn [bindr fst snd app]. rewrite R' by lia. reflexivity.
    + constructor; [split; [reflexivity|exact V]|exact V'].
  - intros b q k b1 b2 t v b3 B Q B1 B2 _ (ts & w & S & O & R & V) B3. exists ts, w. split; [|split; assumption].
    apply blank_before; [|exact B]. apply (jscans0_app_scans q _ [JStr k] (JSym ":" :: ts)); [apply string_scans; exact Q|].
    apply blank_before; [|exact B1]. apply (jscans0_app_scans ":" _ [JSym ":"] ts); [apply (jscans_sym ":" eq_refl)|].
    apply blank_before; [|exact B2]. apply scans_blank; assumption.
Qed.

Theorem document_read : forall s m, json_document s m -> exists w, json_unmarshal s = Ok w /\ json_view (NMap m) w.
Proof.
  intros s m (b & t & b' & -> & B & T & B'). destruct (texts_read t (NMap m) T) as (ts & w & S & O & R & V). exists w. split; [|exact V].
  assert (X := blank_before _ _ b (scans_blank t ts b' S B') B "" Logic.I). rewrite append_nil_r in X. unfold json_unmarshal. rewrite X.
  cbn [jscan jpush bindr]. rewrite app_nil_r. specialize (R (List.length ts + 1) [] ltac:(lia)). rewrite app_nil_r in R.
  rewrite Nat.add_comm in R. cbn [Nat.add] in R. rewrite R. cbn [bindr]. inversion V; subst. reflexivity.
Qed.
