(* The scanner on the texts that the marshaller writes. *)

From Verif Require Import Base CtyModel CtySpec HclModel HclSpec PlainScan.
From Coq Require Import Lia ZifyBool ZifyNat ZifyN.
Ltac Zify.zify_post_hook ::= Z.div_mod_to_equations.

Definition push (ts : list token) (r : result (list token)) : result (list token) :=
  do x <- r; Ok (ts ++ x)%list.

(* The text gives these tokens whatever follows; or when a space, newline, comma or closing bracket follows. *)
Definition scans0 (t : string) (ts : list token) : Prop :=
  forall s, scan LNone (t +++ s) = push ts (scan LNone s).
Definition delim (c : ascii) : Prop := c = " "%char \/ c = "010"%char \/ c = ","%char \/ c = "]"%char.
Definition delim_first (s : string) : Prop := match s with "" => False | String c _ => delim c end.
Definition scans (t : string) (ts : list token) : Prop :=
  forall s, delim_first s -> scan LNone (t +++ s) = push ts (scan LNone s).

Lemma push_nil : forall r, push [] r = r.
Proof. intros [x| |]; reflexivity. Qed.
Lemma push_app : forall a b r, push a (push b r) = push (a ++ b) r.
Proof. intros a b [x| |]; cbn; [rewrite app_assoc|..]; reflexivity. Qed.

Lemma scans0_scans : forall t ts, scans0 t ts -> scans t ts.
Proof. intros t ts H s _. apply H. Qed.

Lemma scans0_app : forall t u ts us, scans0 t ts -> scans0 u us -> scans0 (t +++ u) (ts ++ us).
Proof. intros t u ts us H1 H2 s. rewrite append_assoc, H1, H2, push_app. reflexivity. Qed.

Lemma scans_app0 : forall t u ts us, scans t ts -> delim_first u -> scans0 u us ->
  scans0 (t +++ u) (ts ++ us).
Proof.
  intros t u ts us H1 D H2 s. rewrite append_assoc, H1, H2, push_app; [reflexivity|].
  destruct u; [contradiction|exact D].
Qed.
Lemma scans0_app_scans : forall t u ts us, scans0 t ts -> scans u us -> scans (t +++ u) (ts ++ us).
Proof. intros t u ts us H1 H2 s D. rewrite append_assoc, H1, (H2 s D), push_app. reflexivity. Qed.

Lemma scans0_nil : scans0 "" [].
Proof. intros s. rewrite push_nil. reflexivity. Qed.

Lemma scan_cons : forall st c s, scan st (String c s) =
  do p <- step st c; do ts <- scan (snd p) s; Ok (fst p ++ ts)%list.
Proof. reflexivity. Qed.

Ltac sym_scan := let s := fresh in intros s; unfold nl; cbn [String.append]; rewrite scan_cons; reflexivity.

Lemma scans0_nl : scans0 nl [TNl]. Proof. sym_scan. Qed.
Lemma scans0_lbrace : scans0 "{" [TLBrace]. Proof. sym_scan. Qed.
Lemma scans0_rbrace : scans0 "}" [TRBrace]. Proof. sym_scan. Qed.
Lemma scans0_lbrack : scans0 "[" [TLBrack]. Proof. sym_scan. Qed.
Lemma scans0_rbrack : scans0 "]" [TRBrack]. Proof. sym_scan. Qed.
Lemma scans0_comma : scans0 "," [TComma]. Proof. sym_scan. Qed.
Lemma scans0_minus : scans0 "-" [TMinus]. Proof. sym_scan. Qed.
Lemma scans0_space : scans0 " " [].
Proof. intros s. cbn [String.append]. rewrite scan_cons. change (step LNone " ") with (Ok (@nil token, LNone)).
  cbn [bindr fst snd]. destruct (scan LNone s); reflexivity. Qed.

Lemma scans0_lead : forall n, scans0 (lead n) [].
Proof.
  induction n as [|n IH]; [exact scans0_nil|].
  cbn [lead]. apply (scans0_app "  " _ [] []); [|exact IH].
  apply (scans0_app " " " " [] []); exact scans0_space.
Qed.

Lemma scans0_nllead : forall n, scans0 (nl +++ lead n) [TNl].
Proof. intros n. apply (scans0_app nl (lead n) [TNl] []); [exact scans0_nl|apply scans0_lead]. Qed.

(* Ending a word, a number or an equals sign. *)
Lemma scan_word_end : forall acc c s, ident_char c = false ->
  scan (LIdent acc) (String c s) = push [TIdent acc] (scan LNone (String c s)).
Proof.
  intros acc c s H. rewrite !scan_cons. cbn [step]. rewrite H. unfold emit.
  destruct (step0 c) as [[x y]| |]; cbn [bindr fst snd]; try reflexivity.
  destruct (scan y s); reflexivity.
Qed.
Lemma delim_not_ident : forall c, delim c -> ident_char c = false.
Proof. intros c [->|[->|[->| ->]]]; reflexivity. Qed.
Lemma scan_num_end : forall z c s, delim c ->
  scan (LNum z) (String c s) = push [TNum z] (scan LNone (String c s)).
Proof.
  intros z c s H. rewrite !scan_cons.
  assert (E : step (LNum z) c = emit (TNum z) (step0 c)) by (destruct H as [->|[->|[->| ->]]]; reflexivity).
  rewrite E. unfold emit. cbn [step].
  destruct (step0 c) as [[x y]| |]; cbn [bindr fst snd]; try reflexivity.
  destruct (scan y s); reflexivity.
Qed.

Lemma scan_word : forall w acc s, all_chars ident_char w = true ->
  scan (LIdent acc) (w +++ s) = scan (LIdent (acc +++ w)) s.
Proof.
  induction w as [|c w IH]; intros acc s H; [rewrite append_nil_r; reflexivity|].
  cbn [all_chars] in H. apply andb_true_iff in H. destruct H as [H1 H2].
  cbn [String.append]. rewrite scan_cons. cbn [step]. rewrite H1. cbn [bindr fst snd app].
  rewrite IH by exact H2. replace ((acc +++ str1 c) +++ w) with (acc +++ String c w).
  - destruct (scan _ s); reflexivity.
  - rewrite append_assoc. reflexivity.
Qed.

Lemma scan_ident : forall k s, ident k -> scan LNone (k +++ s) = scan (LIdent k) s.
Proof.
  intros [|c k] s H; [contradiction|]. destruct H as [H1 H2]. cbn [String.append].
  rewrite scan_cons. cbn [step]. unfold step0. rewrite H1. cbn [bindr fst snd].
  rewrite scan_word by exact H2. change (str1 c +++ k) with (String c k).
  destruct (scan _ s); reflexivity.
Qed.

Lemma scans_ident : forall k, ident k -> scans k [TIdent k].
Proof.
  intros k H [|c s] D; [contradiction|]. rewrite scan_ident by exact H.
  apply scan_word_end. apply delim_not_ident. exact D.
Qed.

Lemma scans0_eq : scans0 "= " [TEq].
Proof.
  intros s. cbn [String.append]. rewrite scan_cons.
  change (step LNone "=") with (Ok (@nil token, LEq)). cbn [bindr fst snd]. rewrite scan_cons.
  change (step LEq " ") with (Ok ([TEq], LNone)). cbn [bindr fst snd].
  destruct (scan LNone s); reflexivity.
Qed.

Lemma scans0_call : scans0 "null()" [TIdent "null"; TLParen; TRParen].
Proof.
  intros s. change ("null()" +++ s) with ("null" +++ ("()" +++ s)).
  rewrite scan_ident by (split; reflexivity).
  change ("()" +++ s) with (String "(" (")" +++ s)).
  rewrite scan_word_end by reflexivity.
  assert (E : scans0 "()" [TLParen; TRParen]).
  { apply (scans0_app "(" ")" [TLParen] [TRParen]); sym_scan. }
  change (String "(" (")" +++ s)) with ("()" +++ s). rewrite E, push_app. reflexivity.
Qed.
Lemma scans0_empty : scans0 "[]" [TLBrack; TRBrack].
Proof. apply (scans0_app "[" "]" [TLBrack] [TRBrack]); [exact scans0_lbrack|exact scans0_rbrack]. Qed.

(* ----- quoted strings ----- *)

Lemma scan_quotable : forall q acc s, quotable q ->
  scan (LStr acc) (q +++ quote +++ s) = push [TStr (acc +++ q)] (scan LNone s)
  /\ (forall m, mark_char m = true ->
       match q with "" => True | String d _ => d <> "{"%char /\ mark_char d = false end ->
       scan (LMark m acc) (q +++ quote +++ s) = push [TStr (acc +++ str1 m +++ q)] (scan LNone s)).
Proof.
  assert (R : forall st s x, (do ts <- scan st s; Ok ([] ++ ts)%list) = x <-> scan st s = x).
  { intros st s x. cbn. destruct (scan st s); cbn; reflexivity. }
  induction q as [|c q IH]; intros acc s Q.
  - split.
    + cbn [String.append]. unfold quote. cbn [String.append]. rewrite scan_cons.
      change (step (LStr acc) """") with (Ok ([TStr acc], LNone)). cbn [bindr fst snd].
      rewrite append_nil_r. destruct (scan LNone s); reflexivity.
    + intros m Hm _. cbn [String.append]. unfold quote. cbn [String.append]. rewrite scan_cons.
      change (step (LMark m acc) """") with (Ok ([TStr (acc +++ str1 m)], LNone)). cbn [bindr fst snd].
      change (str1 m +++ "") with (str1 m). destruct (scan LNone s); reflexivity.
  - destruct Q as (Q1 & Q2 & Q3 & Q4 & Q5).
    assert (Eq : Ascii.eqb c """" = false) by (apply Ascii.eqb_neq; exact Q2).
    assert (Eb : Ascii.eqb c "\" = false) by (apply Ascii.eqb_neq; exact Q3).
    assert (En : Ascii.eqb c "010" = false).
    { apply Ascii.eqb_neq. intros ->. discriminate Q1. }
    assert (First : forall a, scan (LStr a) (String c (q +++ quote +++ s))
                    = push [TStr (a +++ String c q)] (scan LNone s)).
    { intros a. rewrite scan_cons. cbn [step]. unfold in_string. rewrite Eq, Eb, En, Q1.
      destruct (mark_char c) eqn:M; cbn [bindr fst snd].
      - apply R. destruct (IH a s Q5) as [_ H]. rewrite (H c M (Q4 eq_refl)). reflexivity.
      - apply R. destruct (IH (a +++ str1 c) s Q5) as [H _]. rewrite H, append_assoc. reflexivity. }
    split; [apply First|].
    intros m Hm [D1 D2]. cbn [String.append].
    specialize (First (acc +++ str1 m)). rewrite scan_cons in First |- *. cbn [step] in First |- *.
    rewrite D2. apply Ascii.eqb_neq in D1. rewrite D1.
    rewrite append_assoc in First. exact First.
Qed.

Lemma scans0_quoted : forall q, quotable q -> scans0 (quote +++ q +++ quote) [TStr q].
Proof.
  intros q Q s. rewrite !append_assoc. unfold quote at 1. cbn [String.append]. rewrite scan_cons.
  change (step LNone """") with (Ok (@nil token, LStr "")). cbn [bindr fst snd].
  destruct (scan_quotable q "" s Q) as [H _]. rewrite H. cbn [String.append].
  destruct (push _ _); reflexivity.
Qed.

(* ----- numbers ----- *)

Lemma digit_ok : forall n, (n < 10)%N ->
  let c := ascii_of_N (48 + n) in
  digit_char c = true /\ digit_value c = Z.of_N n /\ ident_start c = false.
Proof.
  intros n H. cbn zeta.
  assert (E : nat_of_ascii (ascii_of_N (48 + n)) = (48 + N.to_nat n)%nat).
  { unfold nat_of_ascii. rewrite N_ascii_embedding by lia. lia. }
  unfold digit_char, char_in, digit_value. rewrite E. split; [|split].
  - apply andb_true_iff. split; apply Nat.leb_le; lia.
  - lia.
  - unfold ident_start, letter_char, char_in. rewrite E.
    replace (Nat.leb 65 (48 + N.to_nat n)) with false by (symmetry; apply Nat.leb_gt; lia).
    replace (Nat.leb 97 (48 + N.to_nat n)) with false by (symmetry; apply Nat.leb_gt; lia).
    cbn [andb orb]. apply Ascii.eqb_neq. intros X. rewrite X in E.
    change (nat_of_ascii "_") with 95%nat in E. lia.
Qed.

(* Reading the digits of n after a number z. *)
Fixpoint width (fuel : nat) (n : N) : nat :=
  match fuel with 0 => 0 | S f => if N.ltb n 10 then 1 else S (width f (N.div n 10)) end.

Lemma scan_digits : forall f n z s, (N.to_nat n < 2 ^ f)%nat -> (f <> 0)%nat ->
  scan (LNum z) (dec_nat f n +++ s) = scan (LNum (z * 10 ^ Z.of_nat (width f n) + Z.of_N n)) s
  /\ scan LNone (dec_nat f n +++ s) = scan (LNum (Z.of_N n)) s.
Proof.
  assert (One : forall n, (n < 10)%N -> forall s,
     (forall z, scan (LNum z) (digit_text n +++ s) = scan (LNum (z * 10 + Z.of_N n)) s)
     /\ scan LNone (digit_text n +++ s) = scan (LNum (Z.of_N n)) s).
  { intros n Hn s. destruct (digit_ok n Hn) as (D1 & D2 & D3). unfold digit_text, str1.
    cbn [String.append]. split; [intros z|]; rewrite scan_cons; cbn [step].
    - rewrite D1, D2. cbn [bindr fst snd]. destruct (scan _ s); reflexivity.
    - unfold step0. rewrite D3, D1, D2. cbn [bindr fst snd]. destruct (scan _ s); reflexivity. }
  induction f as [|f IH]; intros n z s L F; [congruence|].
  cbn [dec_nat width]. destruct (N.ltb n 10) eqn:E.
  - apply N.ltb_lt in E. destruct (One n E s) as [A B]. split; [|exact B].
    rewrite A. reflexivity.
  - apply N.ltb_ge in E.
    assert (M : (N.modulo n 10 < 10)%N) by (apply N.mod_lt; lia).
    assert (L' : (N.to_nat (N.div n 10) < 2 ^ f)%nat).
    { cbn [Nat.pow] in L. assert (N.to_nat (N.div n 10) * 2 <= N.to_nat n)%nat by lia. lia. }
    assert (F' : (f <> 0)%nat).
    { intros ->. cbn in L. lia. }
    destruct (IH (N.div n 10) z (digit_text (N.modulo n 10) +++ s) L' F') as [A B].
    rewrite append_assoc. destruct (One _ M s) as [C D].
    split.
    + rewrite A, C. f_equal. f_equal.
      rewrite Nat2Z.inj_succ, Z.pow_succ_r by lia.
      assert (Z.of_N n = Z.of_N (n / 10) * 10 + Z.of_N (n mod 10))%Z by lia. nia.
    + rewrite B, C. f_equal. f_equal. lia.
Qed.

Lemma size_bound : forall n, (N.to_nat n < 2 ^ S (N.size_nat n))%nat.
Proof.
  intros n. destruct n as [|p]; [cbn; lia|]. cbn [N.size_nat N.to_nat].
  assert (H : (Pos.to_nat p < 2 ^ Pos.size_nat p)%nat).
  { induction p as [p IH|p IH|]; cbn [Pos.size_nat Nat.pow]; lia. }
  cbn [Nat.pow]. lia.
Qed.

Lemma scan_nat : forall n s, scan LNone (dec_N n +++ s) = scan (LNum (Z.of_N n)) s.
Proof.
  intros n s. unfold dec_N. apply (scan_digits _ n 0%Z s (size_bound n)). discriminate.
Qed.

Lemma scans_nat : forall n, scans (dec_N n) [TNum (Z.of_N n)].
Proof.
  intros n [|c s] D; [contradiction|]. rewrite scan_nat. apply scan_num_end. exact D.
Qed.

Lemma scans_int : forall z, scans (dec_Z z)
  (if (z <? 0)%Z then [TMinus; TNum (- z)] else [TNum z]).
Proof.
  intros z. unfold dec_Z. assert (E : Z.of_N (Z.abs_N z) = Z.abs z) by lia.
  destruct (Z.ltb_spec z 0) as [L|L].
  - apply (scans0_app_scans "-" _ [TMinus] [TNum (- z)]); [exact scans0_minus|].
    assert (H := scans_nat (Z.abs_N z)). rewrite E in H.
    replace (- z)%Z with (Z.abs z) by lia. exact H.
  - assert (H := scans_nat (Z.abs_N z)). rewrite E in H.
    replace (Z.abs z) with z in H by lia. exact H.
Qed.

(* ----- numbers with a point ----- *)

Lemma scan_dec_end : forall m k c s, delim c ->
  scan (LDec m k) (String c s) = push [TDec m k] (scan LNone (String c s)).
Proof.
  intros m k c s H. rewrite !scan_cons.
  assert (E : step (LDec m k) c = emit (TDec m k) (step0 c)) by (destruct H as [->|[->|[->| ->]]]; reflexivity).
  rewrite E. unfold emit. cbn [step].
  destruct (step0 c) as [[x y]| |]; cbn [bindr fst snd]; try reflexivity.
  destruct (scan y s); reflexivity.
Qed.

Lemma scan_dec_digit : forall n m k s, (n < 10)%N ->
  scan (LDec m k) (digit_text n +++ s) = scan (LDec (m * 10 + Z.of_N n) (S k)) s.
Proof.
  intros n m k s Hn. destruct (digit_ok n Hn) as (D1 & D2 & _). unfold digit_text, str1. cbn [String.append].
  rewrite scan_cons. cbn [step]. rewrite D1, D2. cbn [bindr fst snd]. destruct (scan _ s); reflexivity.
Qed.

Lemma scan_dec_zeros : forall n m k s, scan (LDec m k) (zeros n +++ s) = scan (LDec (m * 10 ^ Z.of_nat n) (k + n)) s.
Proof.
  induction n as [|n IH]; intros m k s.
  - cbn [zeros String.append]. rewrite Z.mul_1_r, Nat.add_0_r. reflexivity.
  - cbn [zeros]. rewrite append_assoc. change "0" with (digit_text 0). rewrite scan_dec_digit by lia.
    rewrite IH. f_equal. f_equal; [|lia].
    rewrite Nat2Z.inj_succ, Z.pow_succ_r by lia. change (Z.of_N 0) with 0%Z. ring.
Qed.

Lemma scan_dec_digits : forall f n m k s, (N.to_nat n < 2 ^ f)%nat -> (f <> 0)%nat ->
  scan (LDec m k) (dec_nat f n +++ s)
  = scan (LDec (m * 10 ^ Z.of_nat (width f n) + Z.of_N n) (k + width f n)) s.
Proof.
  induction f as [|f IH]; intros n m k s L F; [congruence|].
  cbn [dec_nat width]. destruct (N.ltb n 10) eqn:E.
  - apply N.ltb_lt in E. rewrite scan_dec_digit by exact E. f_equal. f_equal. lia.
  - apply N.ltb_ge in E.
    assert (M : (N.modulo n 10 < 10)%N) by (apply N.mod_lt; lia).
    assert (L' : (N.to_nat (N.div n 10) < 2 ^ f)%nat).
    { cbn [Nat.pow] in L. assert (N.to_nat (N.div n 10) * 2 <= N.to_nat n)%nat by lia. lia. }
    assert (F' : (f <> 0)%nat).
    { intros ->. cbn in L. lia. }
    rewrite append_assoc, IH by assumption. rewrite scan_dec_digit by exact M. f_equal. f_equal; [|lia].
    rewrite Nat2Z.inj_succ, Z.pow_succ_r by lia.
    assert (Z.of_N n = Z.of_N (n / 10) * 10 + Z.of_N (n mod 10))%Z by lia. nia.
Qed.

Lemma width_length : forall f n, (N.to_nat n < 2 ^ f)%nat -> (f <> 0)%nat -> String.length (dec_nat f n) = width f n.
Proof.
  induction f as [|f IH]; intros n L F; [congruence|].
  cbn [dec_nat width]. destruct (N.ltb n 10) eqn:E; [reflexivity|].
  apply N.ltb_ge in E.
  assert (L' : (N.to_nat (N.div n 10) < 2 ^ f)%nat).
  { cbn [Nat.pow] in L. assert (N.to_nat (N.div n 10) * 2 <= N.to_nat n)%nat by lia. lia. }
  assert (F' : (f <> 0)%nat).
  { intros ->. cbn in L. lia. }
  rewrite length_append, IH by assumption. cbn. lia.
Qed.

Lemma width_bound : forall f n w, (Z.of_N n < 10 ^ Z.of_nat w)%Z -> (w <> 0)%nat -> (width f n <= w)%nat.
Proof.
  induction f as [|f IH]; intros n w L W; [cbn; lia|]. cbn [width]. destruct (N.ltb n 10) eqn:E; [lia|].
  apply N.ltb_ge in E. destruct w as [|w]; [congruence|]. apply le_n_S.
  assert (Wp : (w <> 0)%nat) by (intros ->; cbn in L; lia).
  apply IH; [|exact Wp]. rewrite Nat2Z.inj_succ, Z.pow_succ_r in L by lia. lia.
Qed.

Lemma width_pos : forall f n, (f <> 0)%nat -> (0 < width f n)%nat.
Proof. intros [|f] n F; [congruence|]. cbn. destruct (N.ltb n 10); lia. Qed.

(* A digit after the point. *)
Lemma scan_point : forall z c s, digit_char c = true -> scan (LPoint z) (String c s) = scan (LDec z 0) (String c s).
Proof. intros z c s H. rewrite !scan_cons. cbn [step]. rewrite H. reflexivity. Qed.

Lemma dec_nat_first : forall f n, (f <> 0)%nat -> (N.to_nat n < 2 ^ f)%nat ->
  exists c s, dec_nat f n = String c s /\ digit_char c = true.
Proof.
  induction f as [|f IH]; intros n F L; [congruence|]. cbn [dec_nat]. destruct (N.ltb n 10) eqn:E.
  - apply N.ltb_lt in E. unfold digit_text, str1. do 2 eexists. split; [reflexivity|]. apply (digit_ok n E).
  - apply N.ltb_ge in E.
    assert (L' : (N.to_nat (N.div n 10) < 2 ^ f)%nat).
    { cbn [Nat.pow] in L. assert (N.to_nat (N.div n 10) * 2 <= N.to_nat n)%nat by lia. lia. }
    assert (F' : (f <> 0)%nat).
    { intros ->. cbn in L. lia. }
    destruct (IH (N.div n 10) F' L') as (c & s & -> & D). do 2 eexists. split; [reflexivity|exact D].
Qed.

Definition six (m : Z) : string :=
  let frac := dec_N (Z.to_N (m mod 1000000)) in
  dec_N (Z.to_N (m / 1000000)) +++ "." +++ zeros (6 - String.length frac) +++ frac.

Lemma scans_six : forall m, (0 <= m)%Z -> scans (six m) [TDec m 6].
Proof.
  intros m Hm [|c s] D; [contradiction|]. unfold six. set (fr := Z.to_N (m mod 1000000)).
  set (q := Z.to_N (m / 1000000)). rewrite !append_assoc, scan_nat.
  change ("." +++ (zeros (6 - String.length (dec_N fr)) +++ (dec_N fr +++ String c s)))
    with (String "." (zeros (6 - String.length (dec_N fr)) +++ (dec_N fr +++ String c s))).
  rewrite scan_cons. change (step (LNum (Z.of_N q)) ".") with (Ok (@nil token, LPoint (Z.of_N q))).
  cbn [bindr fst snd app].
  assert (B : (N.to_nat fr < 2 ^ S (N.size_nat fr))%nat) by apply size_bound.
  assert (Z.of_N fr = m mod 1000000)%Z as Efr by (unfold fr; lia).
  assert (W : (width (S (N.size_nat fr)) fr <= 6)%nat).
  { apply width_bound; [|discriminate]. change (10 ^ Z.of_nat 6)%Z with 1000000%Z. lia. }
  assert (P : scan (LPoint (Z.of_N q)) (zeros (6 - String.length (dec_N fr)) +++ (dec_N fr +++ String c s))
    = scan (LDec (Z.of_N q) 0) (zeros (6 - String.length (dec_N fr)) +++ (dec_N fr +++ String c s))).
  { destruct (6 - String.length (dec_N fr))%nat as [|n].
    - cbn [zeros]. change ("" +++ (dec_N fr +++ String c s)) with (dec_N fr +++ String c s).
      destruct (dec_nat_first (S (N.size_nat fr)) fr ltac:(discriminate) B) as (c0 & s0 & E0 & D0).
      unfold dec_N. rewrite E0. cbn [String.append]. apply scan_point. exact D0.
    - cbn [zeros]. rewrite append_assoc. change ("0" +++ (zeros n +++ (dec_N fr +++ String c s)))
        with (String "0" (zeros n +++ (dec_N fr +++ String c s))). apply scan_point. reflexivity. }
  rewrite P, scan_dec_zeros. unfold dec_N. rewrite width_length by (exact B || discriminate).
  rewrite scan_dec_digits by (exact B || discriminate).
  set (w := width (S (N.size_nat fr)) fr) in *.
  replace (0 + (6 - w) + w)%nat with 6%nat by lia.
  replace (Z.of_N q * 10 ^ Z.of_nat (6 - w) * 10 ^ Z.of_nat w + Z.of_N fr)%Z with m.
  - rewrite scan_dec_end by exact D. destruct (scan LNone (String c s)); reflexivity.
  - rewrite <- Z.mul_assoc, <- Z.pow_add_r by lia. replace (Z.of_nat (6 - w) + Z.of_nat w)%Z with 6%Z by lia.
    change (10 ^ 6)%Z with 1000000%Z. rewrite Efr. unfold q. rewrite Z2N.id by (apply Z.div_pos; lia). lia.
Qed.
