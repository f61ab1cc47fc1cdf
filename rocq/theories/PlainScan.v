(* The scanner of HclModel.v on texts without comments and exponents.  What the marshallers write
   is read by it already, so that it holds none. *)

From Verif Require Import Base CtyModel HclModel.

(* The definitions are those of HclModel.v without the states of comments and exponents, under their names. *)
Definition step0 (c : ascii) : result (list token * lexst) :=
  if ident_start c then Ok ([], LIdent (str1 c))
  else if digit_char c then Ok ([], LNum (digit_value c))
  else if Ascii.eqb c " " || Ascii.eqb c "009" then Ok ([], LNone)
  else if Ascii.eqb c "010" then Ok ([TNl], LNone)
  else if Ascii.eqb c """" then Ok ([], LStr "")
  else if Ascii.eqb c "{" then Ok ([TLBrace], LNone)
  else if Ascii.eqb c "}" then Ok ([TRBrace], LNone)
  else if Ascii.eqb c "[" then Ok ([TLBrack], LNone)
  else if Ascii.eqb c "]" then Ok ([TRBrack], LNone)
  else if Ascii.eqb c "(" then Ok ([TLParen], LNone)
  else if Ascii.eqb c ")" then Ok ([TRParen], LNone)
  else if Ascii.eqb c "=" then Ok ([], LEq)
  else if Ascii.eqb c ":" then Ok ([TColon], LNone)
  else if Ascii.eqb c "," then Ok ([TComma], LNone)
  else if Ascii.eqb c "-" then Ok ([TMinus], LNone)
  else Err "unmodelled character".

Definition step (st : lexst) (c : ascii) : result (list token * lexst) :=
  match st with
  | LNone => step0 c
  | LIdent acc => if ident_char c then Ok ([], LIdent (acc +++ str1 c)) else emit (TIdent acc) (step0 c)
  | LNum z =>
    if digit_char c then Ok ([], LNum (z * 10 + digit_value c))
    else if Ascii.eqb c "." then Ok ([], LPoint z)
    else if exp_char c then Err "exponent"
    else emit (TNum z) (step0 c)
  | LPoint z => if digit_char c then Ok ([], LDec (z * 10 + digit_value c) 1) else Err "unmodelled character"
  | LDec m k =>
    if digit_char c then Ok ([], LDec (m * 10 + digit_value c) (S k))
    else if exp_char c then Err "exponent"
    else emit (TDec m k) (step0 c)
  | LEq => if Ascii.eqb c "=" then Err "unmodelled operator" else emit TEq (step0 c)
  | LStr acc => in_string acc c
  | LEsc acc =>
    if Ascii.eqb c "n" then Ok ([], LStr (acc +++ nl))
    else if Ascii.eqb c "t" then Ok ([], LStr (acc +++ str1 "009"))
    else if Ascii.eqb c "r" then Ok ([], LStr (acc +++ str1 "013"))
    else if Ascii.eqb c """" then Ok ([], LStr (acc +++ quote))
    else if Ascii.eqb c "\" then Ok ([], LStr (acc +++ "\"))
    else if Ascii.eqb c "u" || Ascii.eqb c "U" then Err "unmodelled escape"
    else Err "syntax: invalid escape"
  | LMark m acc =>
    if Ascii.eqb c "{" then Err "unmodelled template"
    else if mark_char c then Err "unmodelled mark"
    else in_string (acc +++ str1 m) c
  | _ => Err "comment"
  end.

Fixpoint scan (st : lexst) (s : string) : result (list token) :=
  match s with
  | "" =>
    match st with
    | LNone => Ok []
    | LIdent acc => Ok [TIdent acc]
    | LNum z => Ok [TNum z]
    | LPoint _ => Err "unmodelled character"
    | LDec m k => Ok [TDec m k]
    | LEq => Ok [TEq]
    | _ => Err "syntax: unterminated string"
    end
  | String c s' => do p <- step st c; do ts <- scan (snd p) s'; Ok (fst p ++ ts)%list
  end.

Lemma plain_step0 : forall c p, step0 c = Ok p -> HclModel.step0 c = Ok p.
Proof.
  intros c p H. unfold step0 in H. unfold HclModel.step0.
  repeat match type of H with (if ?b then _ else _) = _ => destruct b; [exact H|] end. discriminate H.
Qed.
Lemma plain_emit : forall t c p, emit t (step0 c) = Ok p -> emit t (HclModel.step0 c) = Ok p.
Proof.
  intros t c p H. unfold emit in *. apply bindr_Ok in H as (q & S0 & H). rewrite (plain_step0 c q S0). exact H.
Qed.
Lemma plain_step : forall st c p, step st c = Ok p -> HclModel.step st c = Ok p.
Proof.
  intros st c p H. destruct st; cbn [step] in H; cbn [HclModel.step]; try exact H; try discriminate H.
  - apply plain_step0. exact H.
  - destruct (ident_char c); [exact H|apply plain_emit; exact H].
  - destruct (digit_char c); [exact H|]. destruct (Ascii.eqb c "."); [exact H|]. destruct (exp_char c); [discriminate H|apply plain_emit; exact H].
  - destruct (digit_char c); [exact H|]. destruct (exp_char c); [discriminate H|apply plain_emit; exact H].
  - destruct (Ascii.eqb c "="); [exact H|apply plain_emit; exact H].
Qed.
Theorem plain_scan : forall s st ts, scan st s = Ok ts -> HclModel.scan st s = Ok ts.
Proof.
  induction s as [|c s IH]; intros st ts H.
  - destruct st; try exact H; discriminate H.
  - cbn [scan] in H. apply bindr_Ok in H as (p & P & H). apply bindr_Ok in H as (us & Q & H).
    cbn [HclModel.scan]. rewrite (plain_step st c p P). cbn [bindr]. rewrite (IH _ _ Q). exact H.
Qed.
