(* The texts that the struct marshaller writes, read back by the scanner. *)

From Verif Require Import Base GoType DetModel CtyModel CtySpec CtyProofs2 HclModel HclSpec HclParse PlainScan HclScan HclRound
  TagModel StructModel StructSpec MarshalModel MarshalSpec.
From Coq Require Import Lia.
Local Open Scope nat_scope.

(* ----- escaped strings ----- *)

Lemma scan_mark : forall m acc x r, x <> "{"%char -> mark_char x = false ->
  scan (LMark m acc) (String x r) = scan (LStr (acc +++ str1 m)) (String x r).
Proof.
  intros m acc x r H1 H2. rewrite !scan_cons. cbn [step]. rewrite H2. apply Ascii.eqb_neq in H1. rewrite H1.
  reflexivity.
Qed.

Lemma scan_skip : forall st r, (do ts <- scan st r; Ok ([] ++ ts)%list) = scan st r.
Proof. intros st r. destruct (scan st r); reflexivity. Qed.

(* The first character of an escaped string. *)
Lemma escape_first : forall c s, (mark_char c = true -> match s with "" => True | String d _ => d <> "{"%char end) ->
  exists x r, escape_lit (String c s) = String x r /\ (x = "\"%char \/ x = c).
Proof.
  intros c s H. cbn [escape_lit].
  repeat match goal with |- context [Ascii.eqb c ?d] => destruct (Ascii.eqb c d) end;
    try (do 2 eexists; split; [reflexivity|left; reflexivity]).
  destruct (mark_char c); [|do 2 eexists; split; [reflexivity|right; reflexivity]].
  specialize (H eq_refl). destruct s as [|d s]; [do 2 eexists; split; [reflexivity|right; reflexivity]|].
  apply Ascii.eqb_neq in H. rewrite H. do 2 eexists; split; [reflexivity|right; reflexivity].
Qed.

Lemma scan_escaped : forall q acc s, plain_text q ->
  scan (LStr acc) (escape_lit q +++ quote +++ s) = push [TStr (acc +++ q)] (scan LNone s).
Proof.
  assert (G : forall q acc s, plain_text q ->
    scan (LStr acc) (escape_lit q +++ quote +++ s) = push [TStr (acc +++ q)] (scan LNone s)
    /\ (forall m, mark_char m = true ->
         match q with "" => True | String d _ => d <> "{"%char /\ mark_char d = false end ->
         scan (LMark m acc) (escape_lit q +++ quote +++ s) = push [TStr (acc +++ str1 m +++ q)] (scan LNone s))).
  2:{ intros q acc s H. exact (proj1 (G q acc s H)). }
  induction q as [|c q IH]; intros acc s Q.
  - assert (B : forall a, scan (LStr a) ("" +++ quote +++ s) = push [TStr (a +++ "")] (scan LNone s)).
    { intros a. cbn [String.append]. unfold quote. cbn [String.append]. rewrite scan_cons.
      change (step (LStr a) """") with (Ok ([TStr a], LNone)). cbn [bindr fst snd].
      rewrite append_nil_r. destruct (scan LNone s); reflexivity. }
    split; [exact (B acc)|]. intros m Hm _. cbn [escape_lit String.append]. unfold quote at 1. cbn [String.append].
    rewrite scan_mark by (discriminate || reflexivity). specialize (B (acc +++ str1 m)).
    rewrite append_assoc in B. exact B.
  - destruct Q as (Q1 & Q2 & Q3).
    assert (First : forall a, scan (LStr a) (escape_lit (String c q) +++ quote +++ s)
                    = push [TStr (a +++ String c q)] (scan LNone s)).
    { intros a. cbn [escape_lit].
      assert (Esc : forall x y, (forall b r, scan (LStr b) (String "\" (String x r)) = scan (LStr (b +++ str1 y)) r) ->
        c = y -> scan (LStr a) ((String "\" (str1 x) +++ escape_lit q) +++ quote +++ s)
          = push [TStr (a +++ String c q)] (scan LNone s)).
      { intros x y X ->. cbn [String.append str1]. rewrite X. rewrite (proj1 (IH _ s Q3)), append_assoc. reflexivity. }
      assert (St : forall x y, (forall b, step (LEsc b) x = Ok ([], LStr (b +++ str1 y))) ->
        forall b r, scan (LStr b) (String "\" (String x r)) = scan (LStr (b +++ str1 y)) r).
      { intros x y X b r. rewrite scan_cons. change (step (LStr b) "\") with (Ok (@nil token, LEsc b)).
        cbn [bindr fst snd]. rewrite scan_skip, scan_cons, X. cbn [bindr fst snd]. apply scan_skip. }
      destruct (Ascii.eqb c "010") eqn:E1.
      { apply Ascii.eqb_eq in E1. apply (Esc "n"%char "010"%char); [apply St; reflexivity|exact E1]. }
      destruct (Ascii.eqb c "013") eqn:E2.
      { apply Ascii.eqb_eq in E2. apply (Esc "r"%char "013"%char); [apply St; reflexivity|exact E2]. }
      destruct (Ascii.eqb c "009") eqn:E3.
      { apply Ascii.eqb_eq in E3. apply (Esc "t"%char "009"%char); [apply St; reflexivity|exact E3]. }
      destruct (Ascii.eqb c """") eqn:E4.
      { apply Ascii.eqb_eq in E4. apply (Esc """"%char """"%char); [apply St; reflexivity|exact E4]. }
      destruct (Ascii.eqb c "\") eqn:E5.
      { apply Ascii.eqb_eq in E5. apply (Esc "\"%char "\"%char); [apply St; reflexivity|exact E5]. }
      assert (Pr : char_in 32 126 c = true).
      { apply Ascii.eqb_neq in E1, E2, E3. destruct Q1 as [Q1|[Q1|[Q1|Q1]]]; congruence. }
      destruct (mark_char c) eqn:M.
      - assert (X : match q with "" => str1 c | String d _ => if Ascii.eqb d "{" then str1 c +++ str1 c else str1 c end
                    = str1 c).
        { destruct q as [|d q]; [reflexivity|]. destruct (Q2 eq_refl) as [D _]. apply Ascii.eqb_neq in D.
          rewrite D. reflexivity. }
        rewrite X. cbn [String.append str1]. rewrite scan_cons. cbn [step]. unfold in_string. rewrite E4, E5, M.
        cbn [bindr fst snd]. rewrite scan_skip. rewrite (proj2 (IH a s Q3) c M (Q2 eq_refl)). reflexivity.
      - cbn [String.append str1]. rewrite scan_cons. cbn [step]. unfold in_string. rewrite E4, E5, M, E1, Pr.
        cbn [bindr fst snd]. rewrite scan_skip, (proj1 (IH _ s Q3)), append_assoc. reflexivity. }
    split; [apply First|].
    intros m Hm [D1 D2]. specialize (First (acc +++ str1 m)). rewrite append_assoc in First.
    destruct (escape_first c q) as (x & r & Ex & Hx).
    { intros M. specialize (Q2 M). destruct q; [exact I|apply Q2]. }
    rewrite Ex in First |- *. cbn [String.append] in First |- *.
    rewrite scan_mark; [exact First| |].
    + destruct Hx as [->| ->]; [discriminate|exact D1].
    + destruct Hx as [->| ->]; [reflexivity|exact D2].
Qed.

Lemma plain_printable : forall s, plain_text s -> printable s = true.
Proof.
  induction s as [|c s IH]; intros H; [reflexivity|]. destruct H as (H1 & _ & H3). cbn [printable].
  rewrite (IH H3). destruct H1 as [H1|[->|[->| ->]]]; [rewrite H1|..]; reflexivity.
Qed.

Lemma scans0_literal : forall s, plain_text s -> scans0 (quote +++ escape_lit s +++ quote) [TStr s].
Proof.
  intros q Q s. rewrite !append_assoc. unfold quote at 1. cbn [String.append]. rewrite scan_cons.
  change (step LNone """") with (Ok (@nil token, LStr "")). cbn [bindr fst snd].
  rewrite scan_skip, scan_escaped by exact Q. reflexivity.
Qed.

(* ----- newlines ----- *)

Definition no_nl (s : string) : Prop := all_chars (fun c => negb (Ascii.eqb c "010")) s = true.
Lemma all_chars_app : forall p a b, all_chars p (a +++ b) = all_chars p a && all_chars p b.
Proof. intros p a b. induction a as [|c a IH]; [reflexivity|]. cbn. rewrite IH, andb_assoc. reflexivity. Qed.
Lemma no_nl_app : forall a b, no_nl a -> no_nl b -> no_nl (a +++ b).
Proof. intros a b H1 H2. unfold no_nl in *. rewrite all_chars_app, H1, H2. reflexivity. Qed.
Lemma replace_app : forall x a b, replace_nl x (a +++ b) = replace_nl x a +++ replace_nl x b.
Proof.
  intros x a b. induction a as [|c a IH]; [reflexivity|]. cbn [String.append replace_nl].
  destruct (Ascii.eqb c "010"); rewrite IH; [rewrite !append_assoc|]; reflexivity.
Qed.
Lemma replace_none : forall x s, no_nl s -> replace_nl x s = s.
Proof.
  intros x s. induction s as [|c s IH]; intros H; [reflexivity|]. unfold no_nl in H. cbn [all_chars] in H.
  apply andb_true_iff in H. destruct H as [H1 H2]. cbn [replace_nl].
  destruct (Ascii.eqb c "010"); [discriminate|]. f_equal. exact (IH H2).
Qed.
Lemma replace_newline : forall x, replace_nl x nl = nl +++ x.
Proof. intros x. cbn. rewrite append_nil_r. reflexivity. Qed.

Lemma all_chars_impl : forall (p q : ascii -> bool) s, (forall c, p c = true -> q c = true) ->
  all_chars p s = true -> all_chars q s = true.
Proof.
  intros p q s H. induction s as [|c s IH]; intros X; [reflexivity|]. cbn in *. apply andb_true_iff in X.
  destruct X as [X1 X2]. rewrite (H c X1), (IH X2). reflexivity.
Qed.
Lemma ident_no_nl : forall k, ident k -> no_nl k.
Proof.
  intros [|c k]; [contradiction|]. intros [H1 H2]. unfold no_nl. cbn [all_chars]. apply andb_true_iff. split.
  - destruct (Ascii.eqb c "010") eqn:X; [|reflexivity]. apply Ascii.eqb_eq in X. subst. discriminate.
  - apply (all_chars_impl ident_char); [|exact H2]. intros d Hd.
    destruct (Ascii.eqb d "010") eqn:X; [|reflexivity]. apply Ascii.eqb_eq in X. subst. discriminate.
Qed.
Lemma blank_no_nl : forall n, no_nl (blank n).
Proof. induction n as [|n IH]; [reflexivity|]. exact IH. Qed.
Lemma lead_no_nl : forall n, no_nl (lead n).
Proof. induction n as [|n IH]; [reflexivity|]. exact IH. Qed.
Lemma escape_no_nl : forall s, no_nl (escape_lit s).
Proof.
  induction s as [|c s IH]; [reflexivity|]. cbn [escape_lit]. apply no_nl_app; [|exact IH].
  destruct (Ascii.eqb c "010") eqn:E; [reflexivity|].
  assert (One : no_nl (str1 c)) by (unfold no_nl, str1; cbn; rewrite E; reflexivity).
  repeat match goal with |- context [Ascii.eqb c ?d] => destruct (Ascii.eqb c d); [reflexivity|] end.
  destruct (mark_char c); [|exact One].
  destruct s as [|d s]; [exact One|]. destruct (Ascii.eqb d "{"); [|exact One].
  apply no_nl_app; exact One.
Qed.
Lemma dec_nat_no_nl : forall f n, no_nl (dec_nat f n).
Proof.
  assert (D : forall n, (n < 10)%N -> no_nl (digit_text n)).
  { intros n L. unfold no_nl, digit_text, str1. cbn [all_chars]. apply andb_true_iff. split; [|reflexivity].
    destruct (Ascii.eqb (ascii_of_N (48 + n)) "010") eqn:X; [|reflexivity].
    apply Ascii.eqb_eq in X. destruct (digit_ok n L) as (Y & _ & _). rewrite X in Y. discriminate. }
  induction f as [|f IH]; intros n; [reflexivity|]. cbn [dec_nat]. destruct (N.ltb n 10) eqn:L.
  - apply D. apply N.ltb_lt. exact L.
  - apply no_nl_app; [apply IH|]. apply D. apply N.mod_lt. discriminate.
Qed.
Lemma dec_Z_no_nl : forall z, no_nl (dec_Z z).
Proof.
  intros z. unfold dec_Z, dec_N. destruct (z <? 0)%Z; [|apply dec_nat_no_nl].
  apply no_nl_app; [reflexivity|apply dec_nat_no_nl].
Qed.

(* ----- the last character ----- *)

Definition solid (s : string) : Prop := exists p c, s = p +++ str1 c /\ ws_char c = false.
Lemma solid_app : forall a b, solid b -> solid (a +++ b).
Proof. intros a b (p & c & -> & H). exists (a +++ p), c. rewrite append_assoc. auto. Qed.
Lemma solid_lit : forall c, ws_char c = false -> solid (str1 c).
Proof. intros c H. exists "", c. auto. Qed.
Lemma dec_nat_solid : forall f n, f <> 0 -> solid (dec_nat f n).
Proof.
  assert (D : forall n, (n < 10)%N -> solid (digit_text n)).
  { intros n L. apply solid_lit. destruct (digit_ok n L) as (Y & _ & _).
    unfold ws_char. destruct (ascii_of_N (48 + n)) as [[] [] [] [] [] [] [] []]; try discriminate; reflexivity. }
  intros [|f] n H; [congruence|]. cbn [dec_nat]. destruct (N.ltb n 10) eqn:L.
  - apply D. apply N.ltb_lt. exact L.
  - apply solid_app. apply D. apply N.mod_lt. discriminate.
Qed.
Lemma dec_Z_solid : forall z, solid (dec_Z z).
Proof.
  intros z. unfold dec_Z, dec_N. destruct (z <? 0)%Z; [apply solid_app|]; apply dec_nat_solid; discriminate.
Qed.

Lemma trim_ws_solid : forall s, solid s -> trim_ws s = s.
Proof.
  intros s (p & c & -> & H). induction p as [|a p IH]; cbn [String.append str1 trim_ws].
  - unfold str1. cbn [trim_ws]. rewrite H. reflexivity.
  - rewrite IH. destruct p; reflexivity.
Qed.
Lemma trim_ws_app : forall s w, all_chars ws_char w = true -> trim_ws (s +++ w) = trim_ws s.
Proof.
  assert (N : forall w, all_chars ws_char w = true -> trim_ws w = "").
  { induction w as [|c w IH]; intros H; [reflexivity|]. cbn in H. apply andb_true_iff in H. destruct H as [H1 H2].
    cbn [trim_ws]. rewrite (IH H2), H1. reflexivity. }
  intros s w H. induction s as [|c s IH]; [exact (N w H)|]. cbn [String.append trim_ws]. rewrite IH. reflexivity.
Qed.
Lemma lead_ws : forall n, all_chars ws_char (lead n) = true.
Proof. induction n as [|n IH]; [reflexivity|]. exact IH. Qed.
Lemma trim_lead : forall n, trim_ws (lead n) = "".
Proof. intros n. exact (trim_ws_app "" (lead n) (lead_ws n)). Qed.
Lemma solid_not_blank : forall s, solid s -> is_blank s = false.
Proof.
  intros s (p & c & -> & H). induction p as [|a p IH]; cbn; [rewrite H; reflexivity|].
  rewrite IH. apply andb_false_r.
Qed.

(* ----- values ----- *)

Lemma scans0_blank : forall n, scans0 (blank n) [].
Proof.
  induction n as [|n IH]; [exact scans0_nil|]. apply (scans0_app " " _ [] []); [exact scans0_space|exact IH].
Qed.
Lemma scans0_nlx : forall x, scans0 x [] -> scans0 (nl +++ x) [TNl].
Proof. intros x H. apply (scans0_app nl x [TNl] []); [exact scans0_nl|exact H]. Qed.

Lemma valid_ident_true : forall k, ident k -> valid_ident k = true.
Proof.
  intros [|c k]; [contradiction|]. intros [H1 H2]. cbn. rewrite H1. cbn. clear H1.
  induction k as [|d k IH]; [reflexivity|]. cbn in *. apply andb_true_iff in H2. destruct H2 as [-> H2]. exact (IH H2).
Qed.

Section Text.
Variable align : list string -> string -> nat.
Notation cty_text := (cty_text align).

Fixpoint texts_of (n : nat) (l : list cval) : result (list string) :=
  match l with
  | [] => Ok []
  | x :: l' => do t <- cty_text n x; do r <- texts_of n l'; Ok (t :: r)
  end.
Fixpoint pairs_of (n : nat) (m : list (string * cval)) : result (list (string * string)) :=
  match m with
  | [] => Ok []
  | (k, x) :: m' =>
    do k' <- (if valid_ident k then Ok k else string_lit k);
    do t <- cty_text (S n) x;
    do r <- pairs_of n m';
    Ok ((k', t) :: r)
  end.
Definition object_lines (n : nat) (ks : list string) (ts : list (string * string)) : string :=
  fold_right (fun kt r => lead (S n) +++ fst kt +++ blank (align ks (fst kt)) +++ " = " +++ snd kt +++ nl +++ r) "" ts.

Lemma cty_text_tup : forall n l, cty_text n (CTup l) = do ts <- texts_of n l; Ok ("[" +++ join ", " ts +++ "]").
Proof.
  intros n l. cbn [MarshalModel.cty_text].
  match goal with |- bindr ?a _ = bindr ?b _ => assert (X : a = b); [|rewrite X; reflexivity] end.
  induction l as [|c l IH]; [reflexivity|]. cbn [texts_of]. rewrite <- IH. reflexivity.
Qed.
Lemma cty_text_obj : forall n kc m, cty_text n (CObj (kc :: m)) =
  do ts <- pairs_of n (kc :: m);
  Ok ("{" +++ nl +++ object_lines n (map fst ts) ts +++ lead n +++ "}").
Proof.
  intros n kc m.
  assert (X : forall l, (fix go m := match m with
              | [] => Ok []
              | (k, x) :: m' =>
                do k' <- (if valid_ident k then Ok k else string_lit k);
                do t <- cty_text (S n) x;
                do r <- go m';
                Ok ((k', t) :: r)
              end) l = pairs_of n l).
  { intros l. induction l as [|[k c] l IH]; [reflexivity|]. cbn [pairs_of]. rewrite <- IH. reflexivity. }
  rewrite <- X. reflexivity.
Qed.

(* The text with its newlines indented reads as an expression with the value c. *)
Definition text_reads (x t : string) (c : cval) : Prop :=
  exists e ts, etoks e ts /\ scans (replace_nl x t) ts /\ means e c.

Lemma replace_join : forall x ts, replace_nl x (join ", " ts) = join ", " (map (replace_nl x) ts).
Proof.
  intros x ts. induction ts as [|t ts IH]; [reflexivity|]. destruct ts as [|t2 ts]; [reflexivity|].
  change (join ", " (t :: t2 :: ts)) with (t +++ ", " +++ join ", " (t2 :: ts)).
  rewrite !replace_app, IH. reflexivity.
Qed.

Lemma scans_tuple : forall us l, Forall2 (fun u c => exists e ts, etoks e ts /\ scans u ts /\ means e c) us l ->
  exists es ts, ttoks es ts /\ scans0 (join ", " us +++ "]") ts /\ Forall2 means es l.
Proof.
  intros us l F. induction F as [|u c us l (e & ts & He & Hs & Hm) F (es & ts' & Ht & Hs' & Hm')].
  - exists [], [TRBrack]. split; [constructor|]. split; [exact scans0_rbrack|constructor].
  - destruct us as [|u2 us].
    + inversion F; subst. inversion Hm'; subst. exists [e], (ts ++ [TRBrack])%list. split; [apply tt_last0; exact He|].
      split; [|constructor; [exact Hm|constructor]]. cbn [join]. apply scans_app0; [exact Hs| |exact scans0_rbrack].
      right. right. right. reflexivity.
    + exists (e :: es), (ts ++ TComma :: ts')%list. split; [apply tt_more; assumption|]. split; [|constructor; assumption].
      change (join ", " (u :: u2 :: us)) with (u +++ ", " +++ join ", " (u2 :: us)). rewrite !append_assoc.
      apply scans_app0; [exact Hs|right; right; left; reflexivity|].
      apply (scans0_app "," _ [TComma]); [exact scans0_comma|].
      apply (scans0_app " " _ []); [exact scans0_space|exact Hs'].
Qed.

Lemma overlay_nodup : forall (u : list (string * cval)), NoDup (keys u) -> overlay u = u.
Proof.
  unfold overlay.
  assert (G : forall (u h : list (string * cval)), NoDup (keys h ++ keys u) ->
    fold_left (fun h kv => insert (fst kv) (snd kv) h) u h = (h ++ u)%list).
  { induction u as [|[k c] u IH]; intros h N; [rewrite app_nil_r; reflexivity|]. cbn [fold_left fst snd].
    assert (I : insert k c h = (h ++ [(k, c)])%list).
    { assert (X : ~ In k (keys h)).
      { cbn [keys map fst] in N. apply NoDup_remove in N. intros X. apply (proj2 N). apply in_or_app. left. exact X. }
      clear N. induction h as [|[k' c'] h IHh]; [reflexivity|]. cbn in X. cbn [insert app].
      destruct (eq_dec k k') as [->|_]; [tauto|]. f_equal. apply IHh. tauto. }
    rewrite I, IH; [rewrite <- app_assoc; reflexivity|]. unfold keys in *. rewrite map_app, <- app_assoc. exact N. }
  intros u N. rewrite G by exact N. reflexivity.
Qed.

Lemma writable_text : forall c, writable c -> forall n, exists t, cty_text n c = Ok t /\ solid t /\
  forall x, scans0 x [] -> text_reads x t c.
Proof.
  induction c as [|s|b|d| |m IH|l IH] using cval_ind'; intros W n; inversion W; subst.
  - eexists. cbn [MarshalModel.cty_text]. unfold string_lit. rewrite plain_printable by assumption. split; [reflexivity|].
    split; [apply solid_app, solid_app; exists "", """"%char; split; reflexivity|].
    intros x _. exists (EStr s), [TStr s]. split; [constructor|]. split; [|constructor].
    rewrite replace_none by (apply no_nl_app; [reflexivity|apply no_nl_app; [apply escape_no_nl|reflexivity]]).
    apply scans0_scans, scans0_literal. assumption.
  - eexists. split; [reflexivity|]. split; [destruct b; [exists "tru", "e"%char|exists "fals", "e"%char]; split; reflexivity|].
    intros x _. exists (EBool b), [TIdent (if b then "true" else "false")]. split.
    { destruct b; [exact (et_kw "true")|exact (et_kw "false")]. }
    split; [|constructor]. rewrite replace_none by (destruct b; reflexivity). apply scans_ident. destruct b; split; reflexivity.
  - eexists. split; [reflexivity|]. split; [apply dec_Z_solid|]. intros x _.
    exists (ENum z), (if (z <? 0)%Z then [TMinus; TNum (- z)] else [TNum z]). split.
    { destruct (z <? 0)%Z; [|constructor]. assert (X := et_neg (- z)). rewrite Z.opp_involutive in X. exact X. }
    split; [|constructor]. rewrite replace_none by apply dec_Z_no_nl. apply scans_int.
  - match goal with H : forall k c, In (k, c) m -> good_key k /\ writable c |- _ => rename H into Hm end.
    match goal with H : NoDup (keys m) |- _ => rename H into ND end.
    destruct m as [|kc m0].
    { exists "{}". split; [reflexivity|]. split; [exists "{", "}"%char; split; reflexivity|]. intros x _.
      exists (EObj []), [TLBrace; TRBrace]. split; [constructor; constructor|]. split.
      - apply scans0_scans. apply (scans0_app "{" "}" [TLBrace] [TRBrace]); [exact scans0_lbrace|exact scans0_rbrace].
      - apply (means_obj [] []). constructor. }
    rewrite cty_text_obj. revert IH W Hm ND. generalize (kc :: m0). clear kc m0. intros m IH W Hm ND.
    assert (P : exists ts, pairs_of n m = Ok ts /\
      Forall2 (fun kt kc => fst kt = fst kc /\ good_key (fst kc) /\ (forall x, scans0 x [] -> text_reads x (snd kt) (snd kc))) ts m).
    { clear W ND. induction m as [|[k c] m IHm]; [exists []; split; [reflexivity|constructor]|].
      destruct (Hm k c (or_introl eq_refl)) as [K Wc].
      destruct (IH k c (or_introl eq_refl) Wc (S n)) as (t & Et & _ & Rt).
      destruct IHm as (ts & Ets & Fts).
      { intros k' c' I. apply (IH k'). right. exact I. }
      { intros k' c' I. apply Hm. right. exact I. }
      exists ((k, t) :: ts). cbn [pairs_of]. rewrite (valid_ident_true k (proj1 K)). cbn [bindr]. rewrite Et. cbn [bindr].
      rewrite Ets. cbn [bindr]. split; [reflexivity|]. constructor; [|exact Fts]. split; [reflexivity|]. split; [exact K|exact Rt]. }
    destruct P as (ts & -> & F). cbn [bindr]. eexists. split; [reflexivity|]. split.
    { do 4 apply solid_app. exists "", "}"%char. split; reflexivity. }
    intros x Hx. generalize (map fst ts). intros ks.
    assert (Q : exists es us, otoks es (us ++ [TRBrace]) /\ scans0 (x +++ replace_nl x (object_lines n ks ts)) us /\
                Forall2 (fun ke kv => fst ke = fst kv /\ means (snd ke) (snd kv)) es m).
    { clear -F Hx. induction F as [|[k t] [k' c] ts m (E & K & R) F (es & us & O & Sc & M)].
      - exists [], []. split; [constructor|]. split; [|constructor]. cbn. rewrite append_nil_r. exact Hx.
      - cbn [fst snd] in *. subst k'. destruct (R x Hx) as (e & vs & He & Hs & Hm).
        exists ((k, e) :: es), (TIdent k :: TEq :: vs ++ TNl :: us)%list. split.
        { cbn [app]. rewrite <- app_assoc. apply ot_more; [apply K|exact He|exact O]. }
        split; [|constructor; [split; [reflexivity|exact Hm]|exact M]].
        cbn [object_lines fold_right fst snd].
        change (fold_right _ "" ts) with (object_lines n ks ts).
        rewrite !replace_app. rewrite (replace_none x (lead (S n))) by apply lead_no_nl.
        rewrite (replace_none x k) by (apply ident_no_nl; apply K).
        rewrite (replace_none x (blank _)) by apply blank_no_nl.
        rewrite (replace_none x " = ") by reflexivity. rewrite replace_newline.
        apply (scans0_app x _ []); [exact Hx|]. apply (scans0_app (lead (S n)) _ []); [apply scans0_lead|].
        change " = " with (" " +++ "= "). rewrite !append_assoc.
        apply (scans_app0 k _ [TIdent k]); [apply scans_ident; apply K| |].
        { destruct (align ks k); left; reflexivity. }
        apply (scans0_app (blank _) _ []); [apply scans0_blank|].
        apply (scans0_app " " _ []); [exact scans0_space|].
        apply (scans0_app "= " _ [TEq]); [exact scans0_eq|].
        apply scans_app0; [exact Hs|right; left; reflexivity|].
        apply (scans0_app nl _ [TNl]); [exact scans0_nl|]. exact Sc. }
    destruct Q as (es & us & O & Sc & M).
    exists (EObj es), (TLBrace :: TNl :: us ++ [TRBrace])%list. split; [constructor; constructor; exact O|]. split.
    + apply scans0_scans. rewrite !replace_app, replace_newline.
      rewrite (replace_none x "{"), (replace_none x "}"), (replace_none x (lead n)) by (try reflexivity; apply lead_no_nl).
      apply (scans0_app "{" _ [TLBrace]); [exact scans0_lbrace|]. rewrite append_assoc.
      apply (scans0_app nl _ [TNl]); [exact scans0_nl|]. rewrite <- append_assoc.
      apply scans0_app; [exact Sc|]. apply (scans0_app (lead n) _ []); [apply scans0_lead|exact scans0_rbrace].
    + rewrite <- (overlay_nodup m ND). apply means_obj. exact M.
  - match goal with H : forall c, In c l -> writable c |- _ => rename H into Hl end.
    rewrite cty_text_tup.
    assert (P : exists ts, texts_of n l = Ok ts /\ Forall2 (fun t c => forall x, scans0 x [] -> text_reads x t c) ts l).
    { clear W. induction l as [|c l IHl]; [exists []; split; [reflexivity|constructor]|].
      destruct (IH c (or_introl eq_refl) (Hl c (or_introl eq_refl)) n) as (t & Et & _ & Rt).
      destruct IHl as (ts & Ets & Fts).
      { intros c' I. apply IH. right. exact I. }
      { intros c' I. apply Hl. right. exact I. }
      exists (t :: ts). cbn [texts_of]. rewrite Et. cbn [bindr]. rewrite Ets. split; [reflexivity|].
      constructor; assumption. }
    destruct P as (ts & -> & F). cbn [bindr]. eexists. split; [reflexivity|]. split.
    { do 2 apply solid_app. exists "", "]"%char. split; reflexivity. }
    intros x Hx. destruct (scans_tuple (map (replace_nl x) ts) l) as (es & us & T & Sc & M).
    { clear -F Hx. induction F as [|t c ts l H F IHF]; [constructor|]. cbn [map]. constructor; [|exact IHF].
      exact (H x Hx). }
    exists (ETuple es), (TLBrack :: us). split; [constructor; exact T|]. split; [|constructor; exact M].
    rewrite !replace_app, replace_join. apply scans0_scans.
    apply (scans0_app "[" _ [TLBrack]); [exact scans0_lbrack|]. exact Sc.
Qed.
End Text.
