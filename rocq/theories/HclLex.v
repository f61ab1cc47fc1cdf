(* Proofs: the scanner reads a text as the tokens it spells, and no other text. *)

From Verif Require Import Base CtyModel CtySpec HclModel HclSpec HclGrammar.
From Coq Require Import Lia.
Local Open Scope nat_scope.

Definition push (ts : list token) (r : result (list token)) : result (list token) := do x <- r; Ok (ts ++ x)%list.
Lemma scan_cons : forall st c s, scan st (String c s) = do p <- step st c; do ts <- scan (snd p) s; Ok (fst p ++ ts)%list.
Proof. reflexivity. Qed.

(* ----- characters ----- *)

Fixpoint memb (c : ascii) (s : string) : bool := match s with "" => false | String d s' => Ascii.eqb c d || memb c s' end.
Lemma memb_spec : forall c s, memb c s = true <-> one_of c s.
Proof.
  intros c s. induction s as [|d s IH]; cbn [memb].
  - split; [discriminate|]. intros (i & H). destruct i; discriminate H.
  - rewrite orb_true_iff, IH. split.
    + intros [E|(i & H)]; [apply Ascii.eqb_eq in E; subst; exists 0; reflexivity|exists (S i); exact H].
    + intros ([|i] & H); [left; cbn in H; injection H as ->; apply Ascii.eqb_refl|right; exists i; exact H].
Qed.
Lemma memb_false : forall c s, memb c s = false <-> ~ one_of c s.
Proof. intros c s. rewrite <- memb_spec. destruct (memb c s); split; congruence. Qed.
Lemma start_word : forall c, ident_start c = memb c letters.
Proof. intros [[] [] [] [] [] [] [] []]; reflexivity. Qed.
Lemma char_word : forall c, ident_char c = memb c letters || memb c "0123456789-".
Proof. intros [[] [] [] [] [] [] [] []]; reflexivity. Qed.
Lemma word_char_iff : forall c, ident_char c = true <-> word_char c.
Proof. intro c. rewrite char_word, orb_true_iff, !memb_spec. reflexivity. Qed.
Lemma word_char_not : forall c, ident_char c = false <-> ~ word_char c.
Proof. intro c. rewrite <- word_char_iff. destruct (ident_char c); split; congruence. Qed.
Lemma digit_iff : forall c, digit_char c = true <-> exists d, digit c d.
Proof.
  intro c. assert (E : digit_char c = memb c "0123456789") by (destruct c as [[] [] [] [] [] [] [] []]; reflexivity).
  rewrite E, memb_spec. split; [intros (i & H); exists (Z.of_nat i), i; auto|intros (d & i & H & _); exists i; exact H].
Qed.
Lemma digit_val : forall c d, digit c d -> d = digit_value c.
Proof.
  intros c d (i & H & ->). do 10 (destruct i as [|i]; [cbn in H; injection H as <-; reflexivity|]). cbn in H. destruct i; discriminate H.
Qed.
Lemma digit_is : forall c, digit_char c = true -> digit c (digit_value c).
Proof. intros c H. apply digit_iff in H. destruct H as (d & H). rewrite <- (digit_val c d H). exact H. Qed.
Lemma digit_not : forall c d, digit c d -> digit_char c = true.
Proof. intros c d H. apply digit_iff. exists d. exact H. Qed.
Lemma marker_iff : forall c, mark_char c = true <-> marker c.
Proof. intro c. unfold mark_char, marker. rewrite orb_true_iff, !Ascii.eqb_eq. reflexivity. Qed.
Lemma marker_not : forall c, mark_char c = false <-> ~ marker c.
Proof. intro c. rewrite <- marker_iff. destruct (mark_char c); split; congruence. Qed.

Lemma only_cons : forall p c s, only p (String c s) <-> p c /\ only p s.
Proof.
  intros p c s. split.
  - intro H. split; [apply (H 0 c eq_refl)|intros i d G; apply (H (S i) d G)].
  - intros [A B] [|i] d G; [cbn in G; injection G as <-; exact A|apply (B i d G)].
Qed.
Lemma only_nil : forall p, only p "".
Proof. intros p [|i] c H; discriminate H. Qed.
Lemma only_word : forall w, only word_char w <-> all_chars ident_char w = true.
Proof.
  induction w as [|c w IH]; [split; [reflexivity|intros _; apply only_nil]|]. rewrite only_cons. cbn [all_chars]. rewrite andb_true_iff, word_char_iff, IH. reflexivity.
Qed.

(* ----- comments ----- *)

Definition in_line : string -> Prop := only (fun d => d <> "010"%char).
(* The text between the signs of a comment. *)
Definition inside (t : string) : Prop := forall x y, t +++ "*/" = x +++ "*/" +++ y -> y = "".
Lemma inside_nil : inside "".
Proof. intros x y H. destruct x as [|a [|b x]]; cbn in H; [congruence|discriminate H|]. injection H as _ _ H. destruct x; discriminate H. Qed.
Lemma inside_cons : forall c t, inside t -> (c = "*"%char -> forall u, t <> String "/" u) -> inside (String c t).
Proof.
  intros c t I N x y H. destruct x as [|a x]; cbn [String.append] in H; [|injection H as _ H; exact (I x y H)].
  injection H as -> H. destruct t as [|d t]; [cbn in H; discriminate H|]. cbn [String.append] in H. injection H as -> _. destruct (N eq_refl t eq_refl).
Qed.
Lemma inside_tail : forall c t, inside (String c t) -> inside t.
Proof. intros c t I x y H. apply (I (String c x) y). cbn [String.append]. rewrite H. reflexivity. Qed.
Lemma inside_slash : forall t u, inside (String "*" t) -> t <> String "/" u.
Proof. intros t u I ->. specialize (I "" (u +++ "*/") eq_refl). destruct u; discriminate I. Qed.

(* ----- what is left to read, in every state ----- *)

Definition rest_line (s : string) (ts : list token) : Prop :=
  (in_line s /\ ts = []) \/ exists c r ts', s = c +++ nl +++ r /\ in_line c /\ ts = TNl :: ts' /\ spelled ts' r.
Definition rest_block (s : string) (ts : list token) : Prop := exists t r, s = t +++ "*/" +++ r /\ inside t /\ spelled ts r.

Definition rest_pow (m : Z) (k : nat) (neg : bool) (x0 : Z) (s : string) (ts : list token) : Prop :=
  exists ds x r ts', s = ds +++ r /\ digits x0 ds x /\ ts = with_exp m k neg x :: ts' /\ ends (TDec 0 0) r /\ spelled ts' r.
Definition rest_sign (m : Z) (k : nat) (neg : bool) (s : string) (ts : list token) : Prop :=
  exists c d s', s = String c s' /\ digit c d /\ rest_pow m k neg (0 * 10 + d) s' ts.
Definition rest_exp (m : Z) (k : nat) (s : string) (ts : list token) : Prop :=
  exists g (neg : bool) s', s = g +++ s' /\ exponent_sign g (if neg then -1 else 1)%Z /\ rest_sign m k neg s' ts.
Definition rest_e (m : Z) (k : nat) (s : string) (ts : list token) : Prop :=
  exists e s', s = String e s' /\ exp_char e = true /\ rest_exp m k s' ts.
Definition rest_dec (m : Z) (k : nat) (s : string) (ts : list token) : Prop :=
  (exists ts', ts = TDec m k :: ts' /\ ends (TDec 0 0) s /\ spelled ts' s) \/ rest_e m k s ts.

Definition rest (st : lexst) (s : string) (ts : list token) : Prop :=
  match st with
  | LNone => spelled ts s
  | LIdent acc => exists w r ts', s = w +++ r /\ only word_char w /\ ts = TIdent (acc +++ w) :: ts' /\ ends (TIdent "") r /\ spelled ts' r
  | LNum z => (exists w z' r ts', s = w +++ r /\ digits z w z' /\ ts = TNum z' :: ts' /\ ends (TNum 0) r /\ spelled ts' r)
      \/ (exists a b m r, s = a +++ "." +++ b +++ r /\ b <> "" /\ digits z (a +++ b) m /\ rest_dec m (String.length b) r ts)
      \/ (exists a m r, s = a +++ r /\ digits z a m /\ rest_e m 0 r ts)
  | LPoint z => exists b m r, s = b +++ r /\ b <> "" /\ digits z b m /\ rest_dec m (String.length b) r ts
  | LDec z k => exists b m r, s = b +++ r /\ digits z b m /\ rest_dec m (k + String.length b) r ts
  | LExp m k => rest_exp m k s ts
  | LSign m k neg => rest_sign m k neg s ts
  | LPow m k neg x => rest_pow m k neg x s ts
  | LEq => exists ts', ts = TEq :: ts' /\ ends TEq s /\ spelled ts' s
  | LStr acc => exists t v r ts', s = t +++ quote +++ r /\ quoted t v /\ ts = TStr (acc +++ v) :: ts' /\ spelled ts' r
  | LEsc acc => exists e c t v r ts', s = String e (t +++ quote +++ r) /\ In (e, c) escapes /\ quoted t v
      /\ ts = TStr (acc +++ String c v) :: ts' /\ spelled ts' r
  | LMark m acc => exists t v r ts', s = t +++ quote +++ r /\ quoted t v /\ (forall d r', t = String d r' -> d <> "{"%char /\ ~ marker d)
      /\ ts = TStr (acc +++ String m v) :: ts' /\ spelled ts' r
  | LSlash => (exists s', s = String "/" s' /\ rest_line s' ts) \/ (exists s', s = String "*" s' /\ rest_block s' ts)
  | LLine => rest_line s ts
  | LBlock => rest_block s ts
  | LStar => rest_block (String "*" s) ts
  end.

Lemma ends_nil : forall t, ends t "".
Proof. intros t c r H. discriminate H. Qed.
Lemma spelled_nil : spelled [] "".
Proof. apply sp_end, gp_none. Qed.
Lemma gap_app : forall a b, gap a -> gap b -> gap (a +++ b).
Proof.
  intros a b A B. induction A as [|c a C A IH|t a T A IH]; [exact B|apply gp_blank; assumption|].
  replace (("/*" +++ t +++ "*/" +++ a) +++ b) with ("/*" +++ t +++ "*/" +++ a +++ b) by (rewrite !append_assoc; reflexivity). apply gp_comment; assumption.
Qed.
Lemma spelled_gap : forall b ts s, gap b -> spelled ts s -> spelled ts (b +++ s).
Proof.
  intros g ts s G H. destruct H as [b B|b c B C|b t x ts r B T E H].
  - apply sp_end. apply gap_app; assumption.
  - rewrite <- append_assoc. apply sp_comment; [apply gap_app; assumption|exact C].
  - rewrite <- append_assoc. apply (sp_more (g +++ b) t x ts r); [apply gap_app; assumption|exact T|exact E|exact H].
Qed.
Lemma spelled_blank : forall c ts s, blank_char c -> spelled ts s -> spelled ts (String c s).
Proof. intros c ts s C H. apply (spelled_gap (String c "") ts s); [apply gp_blank; [exact C|apply gp_none]|exact H]. Qed.
Lemma spelled_line : forall o s ts, o = "#" \/ o = "//" -> rest_line s ts -> spelled ts (o +++ s).
Proof.
  intros o s ts O [(L & ->)|(c & r & ts' & -> & L & -> & R)].
  - apply (sp_comment "" (o +++ s)); [apply gp_none|]. exists o, s. auto.
  - replace (o +++ c +++ nl +++ r) with ("" +++ ((o +++ c) +++ nl) +++ r) by (rewrite !append_assoc; reflexivity).
    apply sp_more; [apply gp_none|apply tx_comment; exists o, c; auto|intros ? ? ?; exact Logic.I|exact R].
Qed.
Lemma spelled_block : forall s ts, rest_block s ts -> spelled ts ("/*" +++ s).
Proof.
  intros s ts (t & r & -> & I & R).
  replace ("/*" +++ t +++ "*/" +++ r) with (("/*" +++ t +++ "*/" +++ "") +++ r) by (rewrite !append_assoc; reflexivity).
  apply spelled_gap; [apply gp_comment; [exact I|apply gp_none]|exact R].
Qed.
Lemma spelled_sym : forall t x ts s, In (t, x) symbols -> ends t s -> spelled ts s -> spelled (t :: ts) (x +++ s).
Proof. intros t x ts s I E H. apply (sp_more "" t x ts s); [apply gp_none|apply tx_sym; exact I|exact E|exact H]. Qed.

(* one more character of a string *)
Lemma in_string_rest : forall acc c p s ts, in_string acc c = Ok p -> rest (snd p) s ts -> rest (LStr acc) (String c s) (fst p ++ ts).
Proof.
  intros acc c p s ts H R. unfold in_string in H.
  destruct (Ascii.eqb_spec c """") as [->|Q]; [injection H as <-; exists "", "", s, ts; rewrite (append_nil_r acc); repeat split; [constructor|exact R]|].
  destruct (Ascii.eqb_spec c "\") as [->|B]; [|destruct (mark_char c) eqn:M].
  - injection H as <-. destruct R as (e & c & t & v & r & ts' & -> & I & T & -> & S). exists (String "\" (String e t)), (String c v), r, ts'.
    repeat split; [apply qt_escape; assumption|exact S].
  - injection H as <-. destruct R as (t & v & r & ts' & -> & T & D & -> & S). exists (String c t), (String c v), r, ts'. repeat split; [|exact S].
    apply qt_mark; [apply marker_iff; exact M|exact D|exact T].
  - destruct (Ascii.eqb c "010"); [discriminate H|]. destruct (char_in 32 126 c) eqn:K; [|discriminate H]. injection H as <-.
    destruct R as (t & v & r & ts' & -> & T & -> & S). exists (String c t), (String c v), r, ts'. rewrite append_assoc. repeat split; [|exact S].
    unfold char_in in K. apply andb_true_iff in K. destruct K as [K1 K2]. apply Nat.leb_le in K1, K2.
    apply qt_plain; [lia|exact Q|exact B|apply marker_not; exact M|exact T].
Qed.
Lemma with_exp_is : forall m k neg x n j, with_exp m k neg x = TDec n j <->
  power_of_ten m ((if neg then -1 else 1) * x - Z.of_nat k) n j.
Proof.
  intros m k neg x n j. unfold with_exp, power_of_ten.
  replace ((if neg then - x else x) - Z.of_nat k)%Z with ((if neg then -1 else 1) * x - Z.of_nat k)%Z by (destruct neg; lia).
  set (e := ((if neg then -1 else 1) * x - Z.of_nat k)%Z). destruct (Z.leb_spec 0 e) as [L|L].
  - split; [intro H; injection H as <- <-; left; auto|intros [(_ & -> & ->)|(H & _)]; [reflexivity|lia]].
  - split; [intro H; injection H as <- <-; right; repeat split; [exact L|lia]|intros [(H & _)|(_ & -> & H)]; [lia|f_equal; lia]].
Qed.
Lemma with_exp_dec : forall m k neg x, exists n j, with_exp m k neg x = TDec n j.
Proof. intros m k neg x. unfold with_exp. destruct (0 <=? _)%Z; eauto. Qed.
Lemma exp_char_iff : forall c, exp_char c = true <-> (str1 c = "e" \/ str1 c = "E").
Proof.
  intro c. unfold exp_char, str1. rewrite orb_true_iff, !Ascii.eqb_eq.
  split; [intros [-> | ->]; auto|intros [H|H]; injection H as ->; auto].
Qed.
(* a number with an exponent, from its first digit *)
Lemma rest_exp_spelled : forall a f k m s ts, a <> "" -> fraction f k -> digits 0 (a +++ k) m ->
  rest_e m (String.length k) s ts -> spelled ts (a +++ f +++ s).
Proof.
  intros a f k m s ts A F D (e & s1 & -> & E & g & neg & s2 & -> & G & c & d & s3 & -> & Dc & ds & x & r & ts' & -> & Ds & -> & En & Sp).
  destruct (with_exp_dec m (String.length k) neg x) as (n & j & W). rewrite W.
  replace (a +++ f +++ String e (g +++ String c (ds +++ r))) with ("" +++ (a +++ f +++ str1 e +++ g +++ String c ds) +++ r)
    by (unfold str1; cbn [String.append]; rewrite !append_assoc; cbn [String.append]; rewrite !append_assoc; reflexivity).
  apply sp_more; [apply gp_none| |exact En|exact Sp].
  apply (tx_exp a f k (str1 e) g (if neg then -1 else 1)%Z (String c ds) m x); try assumption.
  - apply exp_char_iff. exact E.
  - discriminate.
  - exact (dg_more 0 c d ds x Dc Ds).
  - apply with_exp_is. exact W.
Qed.
Lemma step0_rest : forall c p s ts, step0 c = Ok p -> rest (snd p) s ts -> spelled (fst p ++ ts) (String c s).
Proof.
  intros c p s ts H R. unfold step0 in H. destruct (ident_start c) eqn:W.
  { injection H as <-. destruct R as (w & r & ts' & -> & O & -> & E & S). apply (sp_more "" (TIdent (str1 c +++ w)) (String c w) ts' r); [apply gp_none| |exact E|exact S].
    apply (tx_word (String c w)). exists c, w. split; [reflexivity|]. split; [apply memb_spec; rewrite <- start_word; exact W|exact O]. }
  destruct (digit_char c) eqn:D.
  { injection H as <-. cbn [app fst snd] in *. assert (Dc := digit_is c D). destruct R as [(w & z' & r & ts' & -> & G & -> & E & S)|[(a & b & m & r & -> & N & G & [(ts' & -> & E & S)|R])|(a & m & r & -> & G & R)]].
    - apply (sp_more "" (TNum z') (String c w) ts' r); [apply gp_none| |exact E|exact S]. apply tx_num; [discriminate|]. apply (dg_more 0 c (digit_value c)); [exact Dc|exact G].
    - assert (X : String c (a +++ "." +++ b +++ r) = "" +++ (String c a +++ "." +++ b) +++ r) by (cbn [String.append]; rewrite !append_assoc; reflexivity). rewrite X.
      apply (sp_more "" (TDec m (String.length b)) (String c a +++ "." +++ b) ts' r); [apply gp_none| |exact E|exact S].
      apply tx_dec; [discriminate|exact N|]. apply (dg_more 0 c (digit_value c)); [exact Dc|exact G].
    - replace (String c (a +++ "." +++ b +++ r)) with (String c a +++ ("." +++ b) +++ r) by (rewrite append_assoc; reflexivity).
      apply (rest_exp_spelled _ _ b m); [discriminate|right; auto| |exact R]. apply (dg_more 0 c (digit_value c)); [exact Dc|exact G].
    - apply (rest_exp_spelled (String c a) "" "" m); [discriminate|left; auto| |exact R]. rewrite append_nil_r. apply (dg_more 0 c (digit_value c)); [exact Dc|exact G]. }
  destruct (Ascii.eqb c " " || Ascii.eqb c "009") eqn:B.
  { injection H as <-. apply spelled_blank; [|exact R]. apply orb_true_iff in B. rewrite !Ascii.eqb_eq in B. exact B. }
  clear W D B.
  destruct (Ascii.eqb_spec c "010") as [->|_]; [injection H as <-; apply (spelled_sym TNl nl); [cbn; tauto|intros ? ? ?; exact Logic.I|exact R]|].
  destruct (Ascii.eqb_spec c """") as [->|_].
  { injection H as <-. destruct R as (t & v & r & ts' & -> & T & -> & S).
    assert (X : String """" (t +++ quote +++ r) = "" +++ (quote +++ t +++ quote) +++ r) by (unfold quote; cbn [String.append]; rewrite !append_assoc; reflexivity).
    rewrite X. apply sp_more; [apply gp_none|apply tx_str; exact T|intros ? ? ?; exact Logic.I|exact S]. }
  destruct (Ascii.eqb_spec c "{") as [->|_]; [injection H as <-; apply (spelled_sym TLBrace "{"); [cbn; tauto|intros ? ? ?; exact Logic.I|exact R]|].
  destruct (Ascii.eqb_spec c "}") as [->|_]; [injection H as <-; apply (spelled_sym TRBrace "}"); [cbn; tauto|intros ? ? ?; exact Logic.I|exact R]|].
  destruct (Ascii.eqb_spec c "[") as [->|_]; [injection H as <-; apply (spelled_sym TLBrack "["); [cbn; tauto|intros ? ? ?; exact Logic.I|exact R]|].
  destruct (Ascii.eqb_spec c "]") as [->|_]; [injection H as <-; apply (spelled_sym TRBrack "]"); [cbn; tauto|intros ? ? ?; exact Logic.I|exact R]|].
  destruct (Ascii.eqb_spec c "(") as [->|_]; [injection H as <-; apply (spelled_sym TLParen "("); [cbn; tauto|intros ? ? ?; exact Logic.I|exact R]|].
  destruct (Ascii.eqb_spec c ")") as [->|_]; [injection H as <-; apply (spelled_sym TRParen ")"); [cbn; tauto|intros ? ? ?; exact Logic.I|exact R]|].
  destruct (Ascii.eqb_spec c "=") as [->|_].
  { injection H as <-. destruct R as (ts' & -> & E & S). apply (spelled_sym TEq "="); [cbn; tauto|exact E|exact S]. }
  destruct (Ascii.eqb_spec c ":") as [->|_]; [injection H as <-; apply (spelled_sym TColon ":"); [cbn; tauto|intros ? ? ?; exact Logic.I|exact R]|].
  destruct (Ascii.eqb_spec c ",") as [->|_]; [injection H as <-; apply (spelled_sym TComma ","); [cbn; tauto|intros ? ? ?; exact Logic.I|exact R]|].
  destruct (Ascii.eqb_spec c "-") as [->|_]; [injection H as <-; apply (spelled_sym TMinus "-"); [cbn; tauto|intros ? ? ?; exact Logic.I|exact R]|].
  destruct (Ascii.eqb_spec c "#") as [->|_]; [injection H as <-; apply (spelled_line "#"); [left; reflexivity|exact R]|].
  destruct (Ascii.eqb_spec c "/") as [->|_]; [|discriminate H].
  injection H as <-. destruct R as [(s' & -> & R)|(s' & -> & R)]; [apply (spelled_line "//"); [right; reflexivity|exact R]|apply spelled_block; exact R].
Qed.

Lemma emit_Ok : forall t r p, emit t r = Ok p -> exists q, r = Ok q /\ p = (t :: fst q, snd q).
Proof. intros t r p H. unfold emit in H. apply bindr_Ok in H. destruct H as (q & E & H). exists q. split; [exact E|congruence]. Qed.

Theorem scan_sound : forall s st ts, scan st s = Ok ts -> rest st s ts.
Proof.
  induction s as [|c s IH]; intros st ts H.
  - cbn [scan] in H. destruct st; try discriminate H; injection H as <-; cbn [rest].
    + exact spelled_nil.
    + exists "", "", []. rewrite (append_nil_r acc). repeat split; [apply only_nil|apply ends_nil|exact spelled_nil].
    + left. exists "", z, "", []. repeat split; [constructor|apply ends_nil|exact spelled_nil].
    + exists "", m, "". cbn [String.length]. rewrite Nat.add_0_r. repeat split; [constructor|]. left. exists []. repeat split; [apply ends_nil|exact spelled_nil].
    + exists "", x, "", []. repeat split; [constructor|apply ends_nil|exact spelled_nil].
    + exists []. repeat split; [apply ends_nil|exact spelled_nil].
    + left. split; [apply only_nil|reflexivity].
  - rewrite scan_cons in H. apply bindr_Ok in H. destruct H as (p & P & H). apply bindr_Ok in H. destruct H as (ts' & Q & H).
    injection H as <-. apply IH in Q. destruct st as [|acc|z|z|m k|m k|m k neg|m k neg x| |acc|acc|m acc| | | |]; cbn [step] in P.
    + apply step0_rest; assumption.
    + destruct (ident_char c) eqn:I.
      * injection P as <-. destruct Q as (w & r & ts & -> & O & -> & E & S). exists (String c w), r, ts. rewrite append_assoc. repeat split; [|exact E|exact S].
        apply only_cons. split; [apply word_char_iff; exact I|exact O].
      * apply emit_Ok in P. destruct P as (q & P & ->). exists "", (String c s), (fst q ++ ts')%list. rewrite (append_nil_r acc). repeat split.
        -- apply only_nil.
        -- intros c' r' X. injection X as <- <-. apply word_char_not. exact I.
        -- apply step0_rest; assumption.
    + destruct (digit_char c) eqn:D; [|destruct (Ascii.eqb_spec c ".") as [->|N]; [|destruct (exp_char c) eqn:E]].
      * injection P as <-. assert (G := digit_is c D). destruct Q as [(w & z' & r & ts & -> & W & -> & E & S)|[(a & b & m & r & -> & N & W & R)|(a & m & r & -> & W & R)]].
        -- left. exists (String c w), z', r, ts. repeat split; [apply (dg_more z c (digit_value c)); assumption|exact E|exact S].
        -- right. left. exists (String c a), b, m, r. repeat split; [exact N|apply (dg_more z c (digit_value c)); assumption|exact R].
        -- right. right. exists (String c a), m, r. repeat split; [apply (dg_more z c (digit_value c)); assumption|exact R].
      * injection P as <-. destruct Q as (b & m & r & -> & N & W & R). right. left. exists "", b, m, r. repeat split; assumption.
      * injection P as <-. right. right. exists "", z, (String c s). repeat split; [constructor|]. exists c, s. auto.
      * apply emit_Ok in P. destruct P as (q & P & ->). left. exists "", z, (String c s), (fst q ++ ts')%list. repeat split; [constructor| |apply step0_rest; assumption].
        intros c' r' X. injection X as <- <-. apply memb_false. clear -D N E. apply Ascii.eqb_neq in N. destruct c as [[] [] [] [] [] [] [] []]; try reflexivity; discriminate.
    + destruct (digit_char c) eqn:D; [|discriminate P]. injection P as <-. destruct Q as (b & m & r & -> & W & R).
      exists (String c b), m, r. repeat split; [discriminate|apply (dg_more z c (digit_value c)); [apply digit_is; exact D|exact W]|exact R].
    + destruct (digit_char c) eqn:D; [|destruct (exp_char c) eqn:E].
      * injection P as <-. destruct Q as (b & m' & r & -> & W & R). exists (String c b), m', r. cbn [String.length].
        replace (k + S (String.length b)) with (S k + String.length b) by lia.
        repeat split; [apply (dg_more m c (digit_value c)); [apply digit_is; exact D|exact W]|exact R].
      * injection P as <-. exists "", m, (String c s). cbn [String.length]. rewrite Nat.add_0_r. repeat split; [constructor|]. right. exists c, s. auto.
      * apply emit_Ok in P. destruct P as (q & P & ->). exists "", m, (String c s). cbn [String.length]. rewrite Nat.add_0_r. repeat split; [constructor|].
        left. exists (fst q ++ ts')%list. repeat split; [|apply step0_rest; assumption].
        intros c' r' X. injection X as <- <-. apply memb_false. clear -D E. destruct c as [[] [] [] [] [] [] [] []]; try reflexivity; discriminate.
    + destruct (digit_char c) eqn:D; [|destruct (Ascii.eqb_spec c "+") as [->|N]; [|destruct (Ascii.eqb_spec c "-") as [->|N']; [|discriminate P]]]; injection P as <-.
      * exists "", false, (String c s). repeat split; [left; auto|]. exists c, (digit_value c), s. split; [reflexivity|]. split; [apply digit_is; exact D|exact Q].
      * exists "+", false, s. repeat split; [right; left; auto|exact Q].
      * exists "-", true, s. repeat split; [right; right; auto|exact Q].
    + destruct (digit_char c) eqn:D; [|discriminate P]. injection P as <-. exists c, (digit_value c), s. split; [reflexivity|]. split; [apply digit_is; exact D|exact Q].
    + destruct (digit_char c) eqn:D; [|destruct (exp_char c) eqn:E; [discriminate P|]].
      * injection P as <-. destruct Q as (ds & x' & r & ts & -> & W & -> & E & Sp). exists (String c ds), x', r, ts.
        repeat split; [apply (dg_more x c (digit_value c)); [apply digit_is; exact D|exact W]|exact E|exact Sp].
      * apply emit_Ok in P. destruct P as (q & P & ->). exists "", x, (String c s), (fst q ++ ts')%list. repeat split; [constructor| |apply step0_rest; assumption].
        intros c' r' X. injection X as <- <-. apply memb_false. clear -D E. destruct c as [[] [] [] [] [] [] [] []]; try reflexivity; discriminate.
    + destruct (Ascii.eqb_spec c "=") as [->|N]; [discriminate P|]. apply emit_Ok in P. destruct P as (q & P & ->). exists (fst q ++ ts')%list. repeat split; [|apply step0_rest; assumption].
      intros c' r' X. injection X as <- <-. exact N.
    + apply in_string_rest; assumption.
    + assert (G : forall e d, c = e -> In (e, d) escapes -> p = ([], LStr (acc +++ str1 d)) -> rest (LEsc acc) (String c s) (fst p ++ ts')).
      { intros e d -> I ->. destruct Q as (t & v & r & ts & -> & T & -> & S). exists e, d, t, v, r, ts. rewrite append_assoc. repeat split; assumption. }
      destruct (Ascii.eqb_spec c "n"); [injection P as <-; apply (G _ "010"%char e); [cbn; tauto|reflexivity]|].
      destruct (Ascii.eqb_spec c "t"); [injection P as <-; apply (G _ "009"%char e); [cbn; tauto|reflexivity]|].
      destruct (Ascii.eqb_spec c "r"); [injection P as <-; apply (G _ "013"%char e); [cbn; tauto|reflexivity]|].
      destruct (Ascii.eqb_spec c """"); [injection P as <-; apply (G _ """"%char e); [cbn; tauto|reflexivity]|].
      destruct (Ascii.eqb_spec c "\"); [injection P as <-; apply (G _ "\"%char e); [cbn; tauto|reflexivity]|].
      destruct (Ascii.eqb c "u" || Ascii.eqb c "U"); discriminate P.
    + destruct (Ascii.eqb_spec c "{") as [->|N]; [discriminate P|]. destruct (mark_char c) eqn:M; [discriminate P|].
      assert (X := in_string_rest _ _ _ _ _ P Q). destruct X as (t & v & r & ts & E & T & E' & S). exists t, v, r, ts. rewrite append_assoc in E'.
      repeat split; try assumption; intros; subst t; cbn [String.append] in E; injection E as <- _; [exact N|apply marker_not; exact M].
    + destruct (Ascii.eqb_spec c "/") as [->|N]; [|destruct (Ascii.eqb_spec c "*") as [->|N']; [|discriminate P]]; injection P as <-; [left|right]; exists s; auto.
    + destruct (Ascii.eqb_spec c "010") as [->|N]; injection P as <-.
      * right. exists "", s, ts'. repeat split; [apply only_nil|exact Q].
      * destruct Q as [(L & ->)|(d & r & ts & -> & L & -> & R)]; [left; split; [apply only_cons; auto|reflexivity]|].
        right. exists (String c d), r, ts. repeat split; [apply only_cons; auto|exact R].
    + destruct (Ascii.eqb_spec c "*") as [->|N]; injection P as <-; [exact Q|]. destruct Q as (t & r & -> & I & R).
      exists (String c t), r. repeat split; [apply inside_cons; [exact I|congruence]|exact R].
    + destruct (Ascii.eqb_spec c "/") as [->|N]; [|destruct (Ascii.eqb_spec c "*") as [->|N']]; injection P as <-.
      * exists "", s. repeat split; [exact inside_nil|exact Q].
      * destruct Q as (t & r & E & I & R). exists (String "*" t), r. split; [cbn [snd fst app] in *; rewrite E; reflexivity|]. split; [|exact R].
        apply inside_cons; [exact I|]. intros _ u ->. discriminate E.
      * destruct Q as (t & r & E & I & R). cbn [fst snd] in *. exists (String "*" (String c t)), r. split; [rewrite E; reflexivity|]. split; [|exact R].
        apply inside_cons; [apply inside_cons; [exact I|congruence]|]. intros _ u X. congruence.
Qed.

(* ----- the other direction ----- *)

Lemma scan_emit : forall st t c s, step st c = emit t (step0 c) -> scan st (String c s) = push [t] (scan LNone (String c s)).
Proof. intros st t c s H. rewrite !scan_cons, H. cbn [step]. unfold emit, push. destruct (step0 c) as [[p1 p2]| |]; cbn [bindr fst snd]; [|reflexivity..]. destruct (scan p2 s); reflexivity. Qed.
Lemma scan_step : forall st c st' s, step st c = Ok ([], st') -> scan st (String c s) = scan st' s.
Proof. intros st c st' s H. rewrite scan_cons, H. cbn [bindr fst snd]. destruct (scan st' s); reflexivity. Qed.
Lemma scan_inside : forall t r, inside t ->
  scan LBlock (t +++ "*/" +++ r) = scan LNone r /\ ((forall u, t <> String "/" u) -> scan LStar (t +++ "*/" +++ r) = scan LNone r).
Proof.
  induction t as [|c t IH]; intros r I.
  - cbn [String.append]. split; [|intros _]; (rewrite (scan_step _ _ LStar) by reflexivity); apply scan_step; reflexivity.
  - destruct (IH r (inside_tail _ _ I)) as [B S]. cbn [String.append]. split; [|intro N].
    + destruct (Ascii.eqb_spec c "*") as [->|D].
      * rewrite (scan_step _ _ LStar) by reflexivity. apply S. intro u. apply inside_slash. exact I.
      * rewrite (scan_step _ _ LBlock); [exact B|]. cbn [step]. apply Ascii.eqb_neq in D. rewrite D. reflexivity.
    + destruct (Ascii.eqb_spec c "*") as [->|D].
      * rewrite (scan_step _ _ LStar) by reflexivity. apply S. intro u. apply inside_slash. exact I.
      * rewrite (scan_step _ _ LBlock); [exact B|]. cbn [step]. assert (E : c <> "/"%char) by (intros ->; destruct (N t eq_refl)).
        apply Ascii.eqb_neq in D, E. rewrite D, E. reflexivity.
Qed.
Lemma scan_gap : forall b s, gap b -> scan LNone (b +++ s) = scan LNone s.
Proof.
  intros b s H. induction H as [|c b C H IH|t b T H IH]; [reflexivity| |].
  - rewrite <- IH. cbn [String.append]. apply scan_step. destruct C as [->| ->]; reflexivity.
  - rewrite <- IH, !append_assoc. cbn [String.append]. rewrite (scan_step _ _ LSlash), (scan_step _ _ LBlock) by reflexivity. exact (proj1 (scan_inside t (b +++ s) T)).
Qed.
Lemma scan_in_line : forall c s, in_line c -> scan LLine (c +++ s) = scan LLine s.
Proof.
  induction c as [|d c IH]; intros s H; [reflexivity|]. apply only_cons in H. destruct H as [D H]. rewrite <- (IH s H). cbn [String.append]. apply scan_step.
  cbn [step]. apply Ascii.eqb_neq in D. rewrite D. reflexivity.
Qed.
Lemma scan_line : forall t s, line_comment t -> scan LNone (t +++ s) = scan LLine s.
Proof.
  intros t s (o & c & O & -> & L). rewrite append_assoc, <- (scan_in_line c s L). destruct O as [-> | ->]; cbn [String.append].
  - apply scan_step. reflexivity.
  - rewrite (scan_step _ _ LSlash) by reflexivity. apply scan_step. reflexivity.
Qed.
Lemma scan_word : forall w acc s, only word_char w -> scan (LIdent acc) (w +++ s) = scan (LIdent (acc +++ w)) s.
Proof.
  induction w as [|c w IH]; intros acc s H; [rewrite (append_nil_r acc); reflexivity|]. apply only_cons in H. destruct H as [C H].
  replace (acc +++ String c w) with ((acc +++ str1 c) +++ w) by (rewrite append_assoc; reflexivity). rewrite <- IH by exact H. cbn [String.append]. apply scan_step.
  cbn [step]. apply word_char_iff in C. rewrite C. reflexivity.
Qed.
Lemma scan_zdigits : forall z t z' s, digits z t z' -> scan (LNum z) (t +++ s) = scan (LNum z') s.
Proof.
  intros z t z' s H. induction H as [z|z c d t z' D H IH]; [reflexivity|]. cbn [String.append]. rewrite <- IH, (digit_val c d D). apply scan_step. cbn [step]. rewrite (digit_not c d D). reflexivity.
Qed.
Lemma scan_fdigits : forall z t z' k s, digits z t z' -> scan (LDec z k) (t +++ s) = scan (LDec z' (k + String.length t)) s.
Proof.
  intros z t z' k s H. revert k. induction H as [z|z c d t z' D H IH]; intro k; cbn [String.length]; [rewrite Nat.add_0_r; reflexivity|]. cbn [String.append].
  replace (k + S (String.length t)) with (S k + String.length t) by lia. rewrite <- (IH (S k)), (digit_val c d D). apply scan_step. cbn [step]. rewrite (digit_not c d D). reflexivity.
Qed.
Lemma digits_app : forall a b z z', digits z (a +++ b) z' -> exists y, digits z a y /\ digits y b z'.
Proof.
  induction a as [|c a IH]; intros b z z' H; [exists z; split; [constructor|exact H]|]. cbn [String.append] in H. inversion H as [|? ? d ? ? D G]; subst.
  destruct (IH b _ _ G) as (y & Y1 & Y2). exists y. split; [exact (dg_more _ _ _ _ _ D Y1)|exact Y2].
Qed.
Lemma digit_first : forall c d s, digit c d -> scan LNone (String c s) = scan (LNum (0 * 10 + d)) s.
Proof.
  intros c d s D. rewrite (digit_val c d D). apply scan_step. cbn [step]. unfold step0.
  assert (E := digit_not c d D). assert (I : ident_start c = false) by (clear - E; destruct c as [[] [] [] [] [] [] [] []]; try reflexivity; discriminate). rewrite I, E. reflexivity.
Qed.
Lemma scan_in_string : forall t v acc s, quoted t v -> scan (LStr acc) (t +++ quote +++ s) = push [TStr (acc +++ v)] (scan LNone s).
Proof.
  intros t v acc s H. revert acc. induction H as [|c t v R Q B M H IH|e c t v I H IH|c t v M N H IH]; intro acc.
  - rewrite append_nil_r. reflexivity.
  - cbn [String.append]. replace (acc +++ String c v) with ((acc +++ str1 c) +++ v) by (rewrite append_assoc; reflexivity). rewrite <- IH. apply scan_step.
    cbn [step]. unfold in_string. apply Ascii.eqb_neq in Q, B. apply marker_not in M. rewrite Q, B, M.
    assert (K : char_in 32 126 c = true) by (unfold char_in; apply andb_true_iff; split; apply Nat.leb_le; lia). rewrite K.
    assert (L : Ascii.eqb c "010" = false) by (apply Ascii.eqb_neq; intros ->; cbn in R; lia). rewrite L. reflexivity.
  - cbn [String.append]. replace (acc +++ String c v) with ((acc +++ str1 c) +++ v) by (rewrite append_assoc; reflexivity). rewrite <- IH.
    rewrite (scan_step _ _ (LEsc acc)) by reflexivity. apply scan_step. unfold escapes in I. cbn [In] in I.
    repeat (destruct I as [I|I]; [injection I as <- <-; reflexivity|]). contradiction.
  - cbn [String.append]. assert (F := proj2 (marker_iff c) M).
    rewrite (scan_step _ _ (LMark c acc)) by (cbn [step]; unfold in_string; destruct M as [-> | ->]; reflexivity).
    replace (acc +++ String c v) with ((acc +++ str1 c) +++ v) by (rewrite append_assoc; reflexivity). rewrite <- IH.
    destruct t as [|d t]; [reflexivity|]. cbn [String.append]. rewrite !scan_cons. cbn [step]. destruct (N d t eq_refl) as [N1 N2].
    apply Ascii.eqb_neq in N1. apply marker_not in N2. rewrite N1, N2. reflexivity.
Qed.
Lemma scan_xdigits : forall m k neg x ds x' s, digits x ds x' -> scan (LPow m k neg x) (ds +++ s) = scan (LPow m k neg x') s.
Proof.
  intros m k neg x ds x' s H. induction H as [x|x c d ds x' D H IH]; [reflexivity|]. cbn [String.append]. rewrite <- IH, (digit_val c d D). apply scan_step. cbn [step]. rewrite (digit_not c d D). reflexivity.
Qed.
(* the digits of a number, up to its exponent *)
Lemma scan_mantissa : forall a f k m c s, a <> "" -> fraction f k -> digits 0 (a +++ k) m -> exp_char c = true ->
  scan LNone (a +++ f +++ String c s) = scan (LExp m (String.length k)) s.
Proof.
  intros a f k m c s A F D C. apply digits_app in D. destruct D as (y & D1 & D2).
  inversion D1 as [|z0 c0 d t z' D' H]; subst; [contradiction|]. cbn [String.append]. rewrite (digit_first c0 d) by exact D'. rewrite (scan_zdigits _ _ _ _ H).
  assert (Nd : digit_char c = false) by (clear - C; destruct c as [[] [] [] [] [] [] [] []]; try reflexivity; discriminate).
  assert (Np : Ascii.eqb c "." = false) by (clear - C; destruct c as [[] [] [] [] [] [] [] []]; try reflexivity; discriminate).
  destruct F as [(-> & ->)|(-> & N)].
  - inversion D2; subst. cbn [String.append]. apply scan_step. cbn [step]. rewrite Nd, Np, C. reflexivity.
  - rewrite append_assoc. cbn [String.append]. rewrite (scan_step _ _ (LPoint y)) by reflexivity.
    assert (P : scan (LPoint y) (k +++ String c s) = scan (LDec y 0) (k +++ String c s)).
    { inversion D2 as [|z1 c1 d0 t0 z2 G H0]; subst; [contradiction|]. cbn [String.append]. rewrite !scan_cons. cbn [step]. rewrite (digit_not c1 d0 G). reflexivity. }
    rewrite P, (scan_fdigits _ _ _ _ _ D2). cbn [Nat.add]. apply scan_step. cbn [step]. rewrite Nd, C. reflexivity.
Qed.
Lemma scan_exponent : forall m k g i ds x n j r, exponent_sign g i -> ds <> "" -> digits 0 ds x ->
  power_of_ten m (i * x - Z.of_nat k) n j -> ends (TDec n j) r ->
  scan (LExp m k) (g +++ ds +++ r) = push [TDec n j] (scan LNone r).
Proof.
  intros m k g i ds x n j r G N D T E.
  assert (P : forall neg : bool, i = (if neg then -1 else 1)%Z -> forall c d ds', digit c d -> digits (0 * 10 + d) ds' x ->
    scan (LPow m k neg (digit_value c)) (ds' +++ r) = push [TDec n j] (scan LNone r)).
  { intros neg -> c d ds' Dc Dd. apply with_exp_is in T. rewrite <- T. rewrite (digit_val c d Dc) in Dd.
    change (0 * 10 + digit_value c)%Z with (digit_value c) in Dd. rewrite (scan_xdigits m k neg _ ds' x r Dd). destruct r as [|q r]; [reflexivity|]. apply scan_emit. assert (X := E q r eq_refl). cbn beta iota in X. apply memb_false in X.
    destruct q as [[] [] [] [] [] [] [] []]; try reflexivity; discriminate X. }
  inversion D as [|z0 c d t z' D' H]; subst; [contradiction|].
  destruct G as [(-> & I)|[(-> & I)|(-> & I)]]; cbn [String.append].
  - rewrite <- (P false I c d t D' H). apply scan_step. cbn [step]. rewrite (digit_not c d D'). reflexivity.
  - rewrite (scan_step _ _ (LSign m k false)) by reflexivity. rewrite <- (P false I c d t D' H). apply scan_step. cbn [step]. rewrite (digit_not c d D'). reflexivity.
  - rewrite (scan_step _ _ (LSign m k true)) by reflexivity. rewrite <- (P true I c d t D' H). apply scan_step. cbn [step]. rewrite (digit_not c d D'). reflexivity.
Qed.
Lemma scan_token : forall t x r, token_text t x -> ends t r -> scan LNone (x +++ r) = push [t] (scan LNone r).
Proof.
  intros t x r H E. destruct H as [k (c & w & -> & W & O)|x z N D|a b m A B D|a f k e g i ds m x n j A F D Ex G N Ds T|x s Q|t x I|c C].
  - cbn [String.append]. rewrite (scan_step _ _ (LIdent (str1 c))).
    2:{ cbn [step]. unfold step0. rewrite start_word. apply memb_spec in W. rewrite W. reflexivity. }
    rewrite scan_word by exact O. destruct r as [|d r]; [reflexivity|]. apply scan_emit. cbn [step]. assert (G := E d r eq_refl). apply word_char_not in G. rewrite G. reflexivity.
  - inversion D as [|z0 c d t z' D' H]; subst; [contradiction|]. cbn [String.append]. rewrite (digit_first c d) by exact D'. rewrite (scan_zdigits _ _ _ _ H).
    destruct r as [|q r]; [reflexivity|]. apply scan_emit. assert (G := E q r eq_refl). cbn beta iota in G. apply memb_false in G.
    destruct q as [[] [] [] [] [] [] [] []]; try reflexivity; discriminate G.
  - rewrite append_assoc. cbn [String.append]. apply digits_app in D. destruct D as (y & D1 & D2).
    inversion D1 as [|z0 c d t z' D' H]; subst; [contradiction|]. cbn [String.append]. rewrite (digit_first c d) by exact D'. rewrite (scan_zdigits _ _ _ _ H).
    rewrite (scan_step _ _ (LPoint y)) by reflexivity.
    assert (P : scan (LPoint y) (b +++ r) = scan (LDec y 0) (b +++ r)).
    { inversion D2 as [|z1 c0 d0 t0 z2 G H0]; subst; [contradiction|]. cbn [String.append]. rewrite !scan_cons. cbn [step]. rewrite (digit_not c0 d0 G). reflexivity. }
    rewrite P, (scan_fdigits _ _ _ _ _ D2). cbn [Nat.add]. destruct r as [|q r]; [reflexivity|]. apply scan_emit. assert (G := E q r eq_refl). cbn beta iota in G. apply memb_false in G.
    destruct q as [[] [] [] [] [] [] [] []]; try reflexivity; discriminate G.
  - assert (X : exists c, e = str1 c /\ exp_char c = true) by (destruct Ex as [->| ->]; [exists "e"%char|exists "E"%char]; split; reflexivity).
    destruct X as (c & -> & C). rewrite !append_assoc. change (str1 c +++ g +++ ds +++ r) with (String c (g +++ ds +++ r)).
    rewrite (scan_mantissa a f k m c) by assumption. apply (scan_exponent m (String.length k) g i ds x); assumption.
  - rewrite !append_assoc. unfold quote at 1. cbn [String.append]. rewrite (scan_step _ _ (LStr "")) by reflexivity. apply (scan_in_string x s ""). exact Q.
  - unfold symbols in I. cbn [In] in I. repeat (destruct I as [I|I]; [injection I as <- <-; unfold nl; cbn [String.append];
      first [rewrite scan_cons; reflexivity|rewrite (scan_step _ _ LEq) by reflexivity; destruct r as [|q r]; [reflexivity|];
        apply scan_emit; cbn [step]; assert (G := E q r eq_refl); cbn beta iota in G; apply Ascii.eqb_neq in G; rewrite G; reflexivity]|]). contradiction.
  - rewrite append_assoc, (scan_line c _ C). unfold nl. cbn [String.append]. rewrite scan_cons. reflexivity.
Qed.
Lemma spelled_scan : forall ts s, spelled ts s -> scan LNone s = Ok ts.
Proof.
  intros ts s H. induction H as [b B|b c B C|b t x ts r B T E H IH].
  - rewrite <- (append_nil_r b). rewrite scan_gap by exact B. reflexivity.
  - rewrite scan_gap by exact B. rewrite <- (append_nil_r c), (scan_line c "" C). reflexivity.
  - rewrite scan_gap by exact B. rewrite (scan_token t x r T E), IH. reflexivity.
Qed.
Theorem scan_iff : forall s ts, scan LNone s = Ok ts <-> spelled ts s.
Proof. intros s ts. split; [apply (scan_sound s LNone)|apply spelled_scan]. Qed.
