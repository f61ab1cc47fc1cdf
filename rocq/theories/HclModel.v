(* Model of the generic half of package dethcl: marshalling JSON-like Go data to HCL text
   (dethcl/encoding.go and marshalLevel of dethcl/marshal.go), and decoding HCL text into
   maps and lists (dethcl/mapslice.go), with a model of the part of the HCL syntax they use.

   The scanner and parser are those of hclsyntax, which is not in the repository: this is an
   assumption about that library.  Modelled: bodies, attributes, blocks with labels, and
   expressions made of strings without interpolation, decimal numbers, booleans, null, calls without
   arguments, tuples and objects.  Comments count as white space.  Everything else (operators, heredocs,
   non-ASCII text) is refused by the model with an error that starts with
   "unmodelled"; an error that starts with "syntax" is one the library reports too.

   Simplifications: the Go data are those of [native] (maps and slices of interface{}), so
   structs and pointers (encoding.go:122-125) do not occur; the argument "equal" is left out
   since no output depends on it; map iteration order is list order; the bookkeeping in the
   variable tree (mapslice.go:95-202) is left out since the expressions have no variables; VarModel.v has
   both, and C79 shows that nothing changes here. *)

From Verif Require Import Base CtyModel.

(* ----- text ----- *)

Definition char_in (lo hi : nat) (c : ascii) : bool :=
  Nat.leb lo (nat_of_ascii c) && Nat.leb (nat_of_ascii c) hi.
Definition digit_char (c : ascii) : bool := char_in 48 57 c.
Definition letter_char (c : ascii) : bool := char_in 65 90 c || char_in 97 122 c.

Definition nl : string := String "010" "".
Definition quote : string := String """" "".
Definition str1 (c : ascii) : string := String c "".

(* strings.Repeat("  ", n) *)
Fixpoint lead (n : nat) : string := match n with 0 => "" | S n' => "  " +++ lead n' end.

(* strings.Join *)
Fixpoint join (sep : string) (l : list string) : string :=
  match l with
  | [] => ""
  | [s] => s
  | s :: l' => s +++ sep +++ join sep l'
  end.

(* fmt %d *)
Definition digit_text (n : N) : string := str1 (ascii_of_N (48 + n)).
Fixpoint dec_nat (fuel : nat) (n : N) : string :=
  match fuel with
  | 0 => ""
  | S f => if N.ltb n 10 then digit_text n else dec_nat f (N.div n 10) +++ digit_text (N.modulo n 10)
  end.
Definition dec_N (n : N) : string := dec_nat (S (N.size_nat n)) n.
Definition dec_Z (z : Z) : string :=
  if (z <? 0)%Z then "-" +++ dec_N (Z.abs_N z) else dec_N (Z.abs_N z).

(* fmt %f: six decimals of the exact value, to nearest, ties to even. *)
Fixpoint zeros (n : nat) : string := match n with 0 => "" | S n' => "0" +++ zeros n' end.
Definition float_text (d : dyadic) : string :=
  let a := (Z.abs (num d) * 1000000)%Z in
  let q := (a / pow2 (den d))%Z in let r := (2 * (a mod pow2 (den d)))%Z in
  let up := (pow2 (den d) <? r)%Z || ((r =? pow2 (den d))%Z && Z.odd q) in
  let m := (if up then q + 1 else q)%Z in
  let frac := dec_N (Z.to_N (m mod 1000000)) in
  (if (num d <? 0)%Z then "-" else "") +++ dec_N (Z.to_N (m / 1000000)) +++ "."
    +++ zeros (6 - String.length frac) +++ frac.

(* ----- marshalling ----- *)

(* shortDirect on scalars, encoding.go:29-51; None for other data, which go on to
   marshalLevel at line 55. *)
Definition scalar_text (v : native) : option (result string) :=
  match v with
  | NStr s => Some (Ok (quote +++ s +++ quote))
  | NBool b => Some (Ok (if b then "true" else "false"))
  | NInt z | NInt64 z => Some (Ok (dec_Z z))
  | NF32 d | NF64 d =>
    Some (do n <- cty_number_to_native d;
          Ok (match n with
              | NInt z | NInt64 z => dec_Z z
              | NF32 x | NF64 x => float_text x
              | _ => "+Inf"
              end))
  | NInf32 => Some (Ok "+Inf")
  | _ => None
  end.

(* rv.IsValid() && rv.IsZero(), marshal.go:32 *)
Definition go_zero (v : native) : bool :=
  match v with
  | NStr "" | NBool false | NInt 0 | NInt64 0 | NNilMap | NNilList => true
  | NF32 d | NF64 d => (num d =? 0)%Z
  | _ => false
  end.

Definition is_map (v : native) : bool := match v with NMap _ | NNilMap => true | _ => false end.

(* isHashAll, encoding.go:11-27.  The loop stops at the first value that is not a map. *)
Definition is_hash_all (v : native) : nat :=
  match v with
  | NNilMap | NMap [] => 1
  | NMap m => if forallb (fun kv => is_map (snd kv)) m then 2 else 1
  | _ => 0
  end.
(* encoding.go:60-63 *)
Definition hash_kind (depth : nat) (v : native) : nat :=
  let found := is_hash_all v in
  if Nat.leb 2 depth && Nat.eqb found 2 then 1 else found.

(* The last piece of strings.Split(keyname, " "), encoding.go:106-110. *)
Fixpoint last_word (acc s : string) : string :=
  match s with
  | "" => acc
  | String c s' => if Ascii.eqb c " " then last_word "" s' else last_word (acc +++ str1 c) s'
  end.

Definition nmr : string := "NMRBRCKTNDTRMND".
Definition is_nmr (kn : option string) : bool :=
  match kn with Some k => String.eqb k nmr | None => false end.
Definition bytes (b : option string) : string := match b with Some s => s | None => "" end.

(* marshalLevel (marshal.go:30-43) and encoding (encoding.go:112-191) with loopHash
   (encoding.go:59-104).  The result None is the nil byte slice; kn is the optional keyname.
   The inner function entries is the loop at 129-158, loop_hash is loopHash and elems the
   loop at 166-176. *)
Fixpoint marshal_level (v : native) (level : nat) (kn : option string) {struct v}
  : result (option string) :=
  if go_zero v then Ok None else
  match v with
  | NNil => Ok None                                                       (* encoding.go:114 *)
  | NNilMap | NNilList => Ok None
  | NMap m =>
    do arr <- (fix entries (m : list (string * native)) : result (list string) :=
      match m with
      | [] => Ok []
      | (k, x) :: m' =>
        do here <-
          match x with
          | NNil => Ok [k +++ " = null()"]                                       (* 134-139 *)
          | _ =>
            if is_nmr kn then                                                    (* 142-151 *)
              do t <- match scalar_text x with
                      | Some r => r
                      | None => do b <- marshal_level x (S level) None; Ok (bytes b)
                      end;
              Ok [k +++ " = " +++ t]
            else
              (fix loop_hash (name : string) (depth : nat) (kn' : option string)
                             (item : native) {struct item} : result (list string) :=
                match hash_kind depth item with
                | 2 =>                                                           (* 65-72 *)
                  match item with
                  | NMap mm =>
                    (fix each (mm : list (string * native)) : result (list string) :=
                      match mm with
                      | [] => Ok []
                      | (key, value) :: mm' =>
                        do a <- loop_hash (name +++ " " +++ quote +++ key +++ quote) (S depth) None value;
                        do b <- each mm';
                        Ok (a ++ b)%list
                      end) mm
                  | _ => Ok []
                  end
                | 1 =>                                                           (* 73-88 *)
                  do b <- marshal_level item (S level) (Some name);
                  Ok [name +++ " " +++ bytes b]
                | _ =>                                                           (* 89-101 *)
                  match scalar_text item with
                  | Some r => do t <- r; Ok [name +++ " = " +++ t]
                  | None =>
                    do b <- marshal_level item (S level) None;
                    match b, kn' with
                    | Some t, Some key => if String.eqb (last_word "" key) t then Ok []
                                          else Ok [name +++ " = " +++ t]
                    | _, _ => Ok [name +++ " = " +++ bytes b]
                    end
                  end
                end) k 0 kn x
          end;
        do rest <- entries m';
        Ok (here ++ rest)%list
      end) m;
    let inner := lead (S level) +++ join (nl +++ lead (S level)) arr in
    Ok (Some (if Nat.eqb level 0 then nl +++ inner +++ nl +++ lead level         (* 159-163 *)
              else "{" +++ nl +++ inner +++ nl +++ lead level +++ "}"))
  | NList l =>                                                                   (* 164-177 *)
    do arr <- (fix elems (l : list native) : result (list string) :=
      match l with
      | [] => Ok []
      | x :: l' =>
        do b <- marshal_level x (S level) (Some nmr);
        do rest <- elems l';
        Ok (match b with Some t => t | None => "[]" end :: rest)
      end) l;
    Ok (Some ("[" +++ nl +++ lead (S level) +++ join ("," +++ nl +++ lead (S level)) arr
              +++ nl +++ lead level +++ "]"))
  | NStr _ | NBool _ | NInt _ | NInt64 _ | NF32 _ | NF64 _ | NInf32 =>           (* 180-185 *)
    match scalar_text v with
    | Some r => do t <- r; Ok (Some t)
    | None => Err "unreachable"
    end
  end.

(* loopHash, encoding.go:59-104, again on its own: MarshalModel.v calls it for maps with types. *)
Definition loop_hash (level : nat) : string -> nat -> option string -> native -> result (list string) :=
  fix loop_hash (name : string) (depth : nat) (kn' : option string)
                (item : native) {struct item} : result (list string) :=
    match hash_kind depth item with
    | 2 =>
      match item with
      | NMap mm =>
        (fix each (mm : list (string * native)) : result (list string) :=
          match mm with
          | [] => Ok []
          | (key, value) :: mm' =>
            do a <- loop_hash (name +++ " " +++ quote +++ key +++ quote) (S depth) None value;
            do b <- each mm';
            Ok (a ++ b)%list
          end) mm
      | _ => Ok []
      end
    | 1 =>
      do b <- marshal_level item (S level) (Some name);
      Ok [name +++ " " +++ bytes b]
    | _ =>
      match scalar_text item with
      | Some r => do t <- r; Ok [name +++ " = " +++ t]
      | None =>
        do b <- marshal_level item (S level) None;
        match b, kn' with
        | Some t, Some key => if String.eqb (last_word "" key) t then Ok []
                              else Ok [name +++ " = " +++ t]
        | _, _ => Ok [name +++ " = " +++ bytes b]
        end
      end
    end.

(* Marshal, marshal.go:19-24 *)
Definition marshal (v : native) : result (option string) :=
  match v with NNil => Ok None | _ => marshal_level v 0 None end.

(* ----- scanning HCL (library) ----- *)

Inductive token :=
| TIdent (s : string) | TNum (z : Z) | TDec (m : Z) (k : nat) | TStr (s : string)
| TLBrace | TRBrace | TLBrack | TRBrack | TLParen | TRParen
| TEq | TColon | TComma | TMinus | TNl.

(* The scanner state: between tokens, in an identifier, in a number, after its point, in its
   digits behind the point (all digits and the number of those), after the e of its exponent,
   after the sign of that, in the digits of that, after an equals sign, in
   a quoted string, after a backslash in it, after a dollar or percent sign in it, after a slash,
   in a comment up to the end of the line (which counts as a newline), in a comment in slashes and
   stars (which counts as nothing), after a star in it. *)
Inductive lexst :=
| LNone | LIdent (acc : string) | LNum (z : Z) | LPoint (z : Z) | LDec (m : Z) (k : nat)
| LExp (m : Z) (k : nat) | LSign (m : Z) (k : nat) (neg : bool) | LPow (m : Z) (k : nat) (neg : bool) (x : Z) | LEq
| LStr (acc : string) | LEsc (acc : string) | LMark (c : ascii) (acc : string)
| LSlash | LLine | LBlock | LStar.

Definition ident_start (c : ascii) : bool := letter_char c || Ascii.eqb c "_".
Definition ident_char (c : ascii) : bool := ident_start c || digit_char c || Ascii.eqb c "-".
Definition mark_char (c : ascii) : bool := Ascii.eqb c "$" || Ascii.eqb c "%".
Definition digit_value (c : ascii) : Z := Z.of_nat (nat_of_ascii c) - 48.
Definition exp_char (c : ascii) : bool := Ascii.eqb c "e" || Ascii.eqb c "E".
(* The literal with digits m, k of them behind the point, and an exponent.  The power of
   ten is exact (in the library up to the 248th), and the exponent is not limited (in the library
   it is, to 32 bits as a power of two). *)
Definition with_exp (m : Z) (k : nat) (neg : bool) (x : Z) : token :=
  let e := ((if neg then - x else x) - Z.of_nat k)%Z in
  if (0 <=? e)%Z then TDec (m * 10 ^ e) 0 else TDec m (Z.to_nat (- e)).

(* A character between tokens. *)
Definition step0 (c : ascii) : result (list token * lexst) :=
  if ident_start c then Ok ([], LIdent (str1 c))
  else if digit_char c then Ok ([], LNum (digit_value c))
  else if Ascii.eqb c " " || Ascii.eqb c "009" then Ok ([], LNone)
  else if Ascii.eqb c "010" then Ok ([TNl], LNone)
  else if Ascii.eqb c """" then Ok ([], LStr "")
  else if Ascii.eqb c "{" then Ok ([TLBrace], LNone)
  else if Ascii.eqb c "}" then Ok ([TRBrace], LNone)
  else if Ascii.eqb c "[" then Ok ([TLBrack], LNone)
  else if Ascii.eqb c "]" then Ok ([TRBrack], LNone)
  else if Ascii.eqb c "(" then Ok ([TLParen], LNone)
  else if Ascii.eqb c ")" then Ok ([TRParen], LNone)
  else if Ascii.eqb c "=" then Ok ([], LEq)
  else if Ascii.eqb c ":" then Ok ([TColon], LNone)
  else if Ascii.eqb c "," then Ok ([TComma], LNone)
  else if Ascii.eqb c "-" then Ok ([TMinus], LNone)
  else if Ascii.eqb c "#" then Ok ([], LLine)
  else if Ascii.eqb c "/" then Ok ([], LSlash)
  else Err "unmodelled character".

Definition emit (t : token) (r : result (list token * lexst)) : result (list token * lexst) :=
  do p <- r; Ok (t :: fst p, snd p).

(* A character inside a quoted string. *)
Definition in_string (acc : string) (c : ascii) : result (list token * lexst) :=
  if Ascii.eqb c """" then Ok ([TStr acc], LNone)
  else if Ascii.eqb c "\" then Ok ([], LEsc acc)
  else if mark_char c then Ok ([], LMark c acc)
  else if Ascii.eqb c "010" then Err "syntax: newline in string"
  else if char_in 32 126 c then Ok ([], LStr (acc +++ str1 c))
  else Err "unmodelled character in string".

Definition step (st : lexst) (c : ascii) : result (list token * lexst) :=
  match st with
  | LNone => step0 c
  | LIdent acc => if ident_char c then Ok ([], LIdent (acc +++ str1 c)) else emit (TIdent acc) (step0 c)
  | LNum z =>
    if digit_char c then Ok ([], LNum (z * 10 + digit_value c))
    else if Ascii.eqb c "." then Ok ([], LPoint z)
    else if exp_char c then Ok ([], LExp z 0)
    else emit (TNum z) (step0 c)
  | LPoint z => if digit_char c then Ok ([], LDec (z * 10 + digit_value c) 1) else Err "unmodelled character"
  | LDec m k =>
    if digit_char c then Ok ([], LDec (m * 10 + digit_value c) (S k))
    else if exp_char c then Ok ([], LExp m k)
    else emit (TDec m k) (step0 c)
  | LExp m k =>
    if digit_char c then Ok ([], LPow m k false (digit_value c))
    else if Ascii.eqb c "+" then Ok ([], LSign m k false)
    else if Ascii.eqb c "-" then Ok ([], LSign m k true)
    else Err "unmodelled character"
  | LSign m k neg => if digit_char c then Ok ([], LPow m k neg (digit_value c)) else Err "unmodelled character"
  | LPow m k neg x =>
    if digit_char c then Ok ([], LPow m k neg (x * 10 + digit_value c))
    else if exp_char c then Err "unmodelled character"
    else emit (with_exp m k neg x) (step0 c)
  | LEq => if Ascii.eqb c "=" then Err "unmodelled operator" else emit TEq (step0 c)
  | LStr acc => in_string acc c
  | LEsc acc =>
    if Ascii.eqb c "n" then Ok ([], LStr (acc +++ nl))
    else if Ascii.eqb c "t" then Ok ([], LStr (acc +++ str1 "009"))
    else if Ascii.eqb c "r" then Ok ([], LStr (acc +++ str1 "013"))
    else if Ascii.eqb c """" then Ok ([], LStr (acc +++ quote))
    else if Ascii.eqb c "\" then Ok ([], LStr (acc +++ "\"))
    else if Ascii.eqb c "u" || Ascii.eqb c "U" then Err "unmodelled escape"
    else Err "syntax: invalid escape"
  | LMark m acc =>
    if Ascii.eqb c "{" then Err "unmodelled template"
    else if mark_char c then Err "unmodelled mark"
    else in_string (acc +++ str1 m) c
  | LSlash =>
    if Ascii.eqb c "/" then Ok ([], LLine) else if Ascii.eqb c "*" then Ok ([], LBlock) else Err "unmodelled operator"
  | LLine => if Ascii.eqb c "010" then Ok ([TNl], LNone) else Ok ([], LLine)
  | LBlock => if Ascii.eqb c "*" then Ok ([], LStar) else Ok ([], LBlock)
  | LStar =>
    if Ascii.eqb c "/" then Ok ([], LNone) else if Ascii.eqb c "*" then Ok ([], LStar) else Ok ([], LBlock)
  end.

Fixpoint scan (st : lexst) (s : string) : result (list token) :=
  match s with
  | "" =>
    match st with
    | LNone => Ok []
    | LIdent acc => Ok [TIdent acc]
    | LNum z => Ok [TNum z]
    | LPoint _ | LExp _ _ | LSign _ _ _ => Err "unmodelled character"
    | LDec m k => Ok [TDec m k]
    | LPow m k neg x => Ok [with_exp m k neg x]
    | LEq => Ok [TEq]
    | LLine => Ok []
    | LSlash | LBlock | LStar => Err "syntax: unfinished comment"
    | _ => Err "syntax: unterminated string"
    end
  | String c s' => do p <- step st c; do ts <- scan (snd p) s'; Ok (fst p ++ ts)%list
  end.

(* ----- parsing HCL (library) ----- *)

Inductive expr :=
| ENum (z : Z)
| EDec (m : Z) (k : nat)        (* m / 10^k *)
| EStr (s : string)
| EBool (b : bool)
| ENull
| ECall (f : string)            (* a call without arguments *)
| EVar (x : string)
| ETuple (l : list expr)
| EObj (m : list (string * expr)).

(* A body: attributes and blocks in source order. *)
Inductive item :=
| IAttr (k : string) (e : expr)
| IBlock (type : string) (labels : list string) (body : list item).

Fixpoint skip_nl (ts : list token) : list token :=
  match ts with TNl :: ts' => skip_nl ts' | _ => ts end.

Definition keyword (x : string) : expr :=
  if String.eqb x "true" then EBool true
  else if String.eqb x "false" then EBool false
  else if String.eqb x "null" then ENull
  else EVar x.

Fixpoint pexpr (n : nat) (ts : list token) {struct n} : result (expr * list token) :=
  match n with
  | 0 => Err "fuel"
  | S n' =>
    match ts with
    | TNum z :: r => Ok (ENum z, r)
    | TMinus :: TNum z :: r => Ok (ENum (- z), r)
    | TDec m k :: r => Ok (EDec m k, r)
    | TMinus :: TDec m k :: r => Ok (EDec (- m) k, r)
    | TStr s :: r => Ok (EStr s, r)
    | TIdent f :: TLParen :: TRParen :: r => Ok (ECall f, r)
    | TIdent f :: TLParen :: _ => Err "unmodelled call"
    | TIdent x :: r => Ok (keyword x, r)
    | TLBrack :: r => do p <- ptuple n' r; Ok (ETuple (fst p), snd p)
    | TLBrace :: r => do p <- pobject n' true r; Ok (EObj (fst p), snd p)
    | _ => Err "syntax: expression expected"
    end
  end
(* After the opening bracket: newlines do not count. *)
with ptuple (n : nat) (ts : list token) {struct n} : result (list expr * list token) :=
  match n with
  | 0 => Err "fuel"
  | S n' =>
    match skip_nl ts with
    | TRBrack :: r => Ok ([], r)
    | ts' =>
      do p <- pexpr n' ts';
      match skip_nl (snd p) with
      | TRBrack :: r => Ok ([fst p], r)
      | TComma :: r => do q <- ptuple n' r; Ok (fst p :: fst q, snd q)
      | _ => Err "syntax: missing item separator"
      end
    end
  end
(* After the opening brace of an object: items end with a newline or a comma.  The word "for"
   right after the brace starts a for expression. *)
with pobject (n : nat) (first : bool) (ts : list token) {struct n} : result (list (string * expr) * list token) :=
  match n with
  | 0 => Err "fuel"
  | S n' =>
    match skip_nl ts with
    | TRBrace :: r => Ok ([], r)
    | TIdent k :: r =>
      if first && String.eqb k "for" then
        match r with TIdent _ :: _ => Err "unmodelled for expression" | _ => Err "syntax: invalid for expression" end
      else
      match r with
      | TEq :: r1 | TColon :: r1 =>
        do p <- pexpr n' r1;
        match snd p with
        | TRBrace :: r2 => Ok ([(k, fst p)], r2)
        | TNl :: r2 | TComma :: r2 => do q <- pobject n' false r2; Ok ((k, fst p) :: fst q, snd q)
        | _ => Err "syntax: missing attribute separator"
        end
      | TLParen :: _ | TMinus :: _ | TLBrack :: _ => Err "unmodelled key"
      | _ => Err "syntax: missing key/value separator"
      end
    | _ => Err "unmodelled key"
    end
  end.

(* Labels up to the opening brace. *)
Fixpoint plabels (ts : list token) : result (list string * list token) :=
  match ts with
  | TLBrace :: r => Ok ([], r)
  | TStr s :: r => do p <- plabels r; Ok (s :: fst p, snd p)
  | TIdent s :: r => do p <- plabels r; Ok (s :: fst p, snd p)
  | _ => Err "syntax: invalid block definition"
  end.

Definition attr_names (its : list item) : list string :=
  flat_map (fun i => match i with IAttr k _ => [k] | _ => [] end) its.

(* The body of a block on one line: one attribute and the closing brace (parseSingleAttrBody). *)
Definition one_line (n : nat) (ts : list token) : result (list item * list token) :=
  match ts with
  | TIdent k :: TEq :: r =>
    do p <- pexpr n r;
    match snd p with
    | TRBrace :: r1 => Ok ([IAttr k (fst p)], r1)
    | _ => Err "syntax: closing brace expected"
    end
  | _ => Err "syntax: argument expected"
  end.
(* What stands behind the opening brace: a body in lines, or one on the same line. *)
Definition block_body (body : list token -> result (list item * list token)) (n : nat) (ts : list token)
  : result (list item * list token) :=
  match ts with
  | TNl :: _ | TRBrace :: _ => body ts
  | [] => Err "syntax: unclosed block"
  | _ => one_line n ts
  end.

(* Body up to the closing brace (nested) or the end of the text. *)
Fixpoint pbody (n : nat) (nested : bool) (ts : list token) {struct n}
  : result (list item * list token) :=
  match n with
  | 0 => Err "fuel"
  | S n' =>
    match ts with
    | [] => if nested then Err "syntax: unclosed block" else Ok ([], [])
    | TRBrace :: r => if nested then Ok ([], r) else Err "syntax: item expected"
    | TNl :: r => pbody n' nested r
    | TIdent k :: TEq :: r =>
      do p <- pexpr n' r;
      match snd p with
      | TNl :: r1 =>
        do q <- pbody n' nested r1;
        if in_dec string_dec k (attr_names (fst q)) then Err "syntax: attribute redefined"
        else Ok (IAttr k (fst p) :: fst q, snd q)
      | [] => if nested then Err "syntax: unclosed block" else Ok ([IAttr k (fst p)], [])
      | _ => Err "syntax: missing newline after argument"
      end
    | TIdent k :: r =>
      do p <- plabels r;
      do b <- block_body (pbody n' true) n' (snd p);
      match snd b with
      | TNl :: r1 =>
        do q <- pbody n' nested r1;
        Ok (IBlock k (fst p) (fst b) :: fst q, snd q)
      | [] => if nested then Err "syntax: unclosed block" else Ok ([IBlock k (fst p) (fst b)], [])
      | _ => Err "syntax: missing newline after block definition"
      end
    | _ => Err "syntax: item expected"
    end
  end.

(* hclsyntax.ParseConfig *)
Definition parse_config (s : string) : result (list item) :=
  do ts <- scan LNone s;
  do p <- pbody (2 * List.length ts + 2) false ts;
  Ok (fst p).

(* ----- decoding ----- *)

(* big.ParseFloat with 512 bits (library), as hclsyntax and cty use it for literals with a
   point: the nearest number of p bits to a / b, for positive a and b, ties to even.
   Simplification: the power of five is exact (in the library up to 248 places). *)
Definition ratio (p a b : Z) : dyadic :=
  let e := (Z.log2 a - Z.log2 b)%Z in
  let below := (if 0 <=? e then a <? b * 2 ^ e else a * 2 ^ (- e) <? b)%Z in   (* a / b < 2^e *)
  let u := ((if below then e - 1 else e) + 1 - p)%Z in                          (* the last place *)
  let x := (if u <? 0 then a * 2 ^ (- u) else a)%Z in
  let y := (if u <? 0 then b else b * 2 ^ u)%Z in
  let q := (x / y)%Z in let r := (2 * (x mod y))%Z in
  let n := (if (y <? r) || ((r =? y) && Z.odd q) then q + 1 else q)%Z in
  if (u <? 0)%Z then mkD n (Z.to_nat (- u)) else mkD (n * 2 ^ u) 0.
Definition decimal (m : Z) (k : nat) : dyadic :=
  if (m =? 0)%Z then mkD 0 0
  else let d := ratio 512 (Z.abs m) (10 ^ Z.of_nat k) in mkD (Z.sgn m * num d) (den d).

(* expressionToNative, decodeSlice and decodeObjectConsExpr, mapslice.go:13-32, 147-205.
   They parse the source text of a tuple or object again, which gives the same expression.
   Literals go through ExpressionToCty and CtyToNative (util.go:104-166, 226-280). *)
Fixpoint expr_native (e : expr) : result native :=
  match e with
  | ENum z => cty_number_to_native (mkD z 0)
  | EDec m k => cty_number_to_native (decimal m k)
  | EStr s => Ok (NStr s)
  | EBool b => Ok (NBool b)
  | ENull => Ok NNil
  | ECall f => if String.eqb f "null" then Ok NNil else Err "unmodelled call"    (* 185-188 *)
  | EVar _ => Err "unmodelled variable"
  | ETuple l =>
    do u <- (fix go l := match l with
             | [] => Ok []
             | e :: l' => do x <- expr_native e; do r <- go l'; Ok (x :: r)
             end) l;
    Ok (match u with [] => NNilList | _ => NList u end)
  | EObj m =>
    do u <- (fix go m := match m with
             | [] => Ok []
             | (k, e) :: m' => do x <- expr_native e; do r <- go m'; Ok ((k, x) :: r)
             end) m;
    Ok (NMap (fold_left (fun h kv => insert (fst kv) (snd kv) h) u []))
  end.

(* The blocks of a body with their decoded bodies, forced only when used. *)
Definition dblock : Type := string * list string * result native.

Definition force_all {K : Type} (l : list (K * result native)) : result (list (K * native)) :=
  fold_right (fun kr acc => do x <- snd kr; do r <- acc; Ok ((fst kr, x) :: r)) (Ok []) l.

(* The three groupings at mapslice.go:57-91, each a map in order of first appearance. *)
Fixpoint add_list {A} (k : string) (x : A) (m : list (string * list A)) : list (string * list A) :=
  match m with
  | [] => [(k, [x])]
  | (k', l) :: m' => if string_dec k k' then (k', l ++ [x])%list :: m' else (k', l) :: add_list k x m'
  end.
Definition slice_bodies (bs : list dblock) : list (string * list (result native)) :=
  fold_left (fun m b => match b with (t, [], r) => add_list t r m | _ => m end) bs [].
Definition get_or {A} (m : list (string * list A)) (k : string) : list A :=
  match lookup k m with Some x => x | None => [] end.
Definition map_bodies (bs : list dblock) : list (string * list (string * result native)) :=
  fold_left (fun m b => match b with
    | (t, [l], r) => insert t (insert l r (get_or m t)) m
    | _ => m end) bs [].
Definition map2_bodies (bs : list dblock)
  : list (string * list (string * list (string * result native))) :=
  fold_left (fun m b => match b with
    | (t, [l1; l2], r) =>
      let mt := get_or m t in insert t (insert l1 (insert l2 r (get_or mt l1)) mt) m
    | _ => m end) bs [].

(* One pass over a grouping, assigning into the object (93-109, 111-123, 125-142). *)
Fixpoint assign {A} (f : A -> result native) (g : list (string * A))
  (obj : list (string * native)) : result (list (string * native)) :=
  match g with
  | [] => Ok obj
  | (k, a) :: g' => do x <- f a; assign f g' (insert k x obj)
  end.

Definition slice_value (l : list (result native)) : result native :=
  do u <- force_all (map (fun r => (tt, r)) l);
  Ok (match u with [x] => snd x | _ => NList (map snd u) end).                   (* 104-108 *)
Definition map_value (m : list (string * result native)) : result native :=
  do u <- force_all m; Ok (NMap u).
Definition map2_value (m : list (string * list (string * result native))) : result native :=
  do u <- force_all (map (fun kv => (fst kv, map_value (snd kv))) m); Ok (NMap u).

Definition too_many (b : dblock) : bool := Nat.ltb 2 (List.length (snd (fst b))).

(* decodeBody after its attributes and blocks are read, mapslice.go:48-145. *)
Definition assemble (attrs : list (string * native)) (bs : list dblock) : result native :=
  if existsb too_many bs then Err "not resolvable" else                          (* 88-89 *)
  do o1 <- assign slice_value (slice_bodies bs) attrs;
  do o2 <- assign map_value (map_bodies bs) o1;
  do o3 <- assign map2_value (map2_bodies bs) o2;
  Ok (NMap o3).

Fixpoint body_attrs (its : list item) : list (string * expr) :=
  match its with
  | [] => []
  | IAttr k e :: r => (k, e) :: body_attrs r
  | IBlock _ _ _ :: r => body_attrs r
  end.
Fixpoint attrs_native (l : list (string * expr)) : result (list (string * native)) :=
  match l with
  | [] => Ok []
  | (k, e) :: l' => do x <- expr_native e; do r <- attrs_native l'; Ok ((k, x) :: r)
  end.

(* decodeBody, mapslice.go:47-145.  The attribute map has distinct keys, ParseConfig sees to
   that. *)
Fixpoint item_block (i : item) : option dblock :=
  match i with
  | IAttr _ _ => None
  | IBlock t ls b =>
    Some (t, ls,
      do attrs <- attrs_native (body_attrs b);
      assemble attrs ((fix go b := match b with
                       | [] => []
                       | i :: b' => match item_block i with Some x => x :: go b' | None => go b' end
                       end) b))
  end.
Fixpoint body_blocks (its : list item) : list dblock :=
  match its with
  | [] => []
  | i :: r => match item_block i with Some x => x :: body_blocks r | None => body_blocks r end
  end.
Definition decode_body (its : list item) : result native :=
  do attrs <- attrs_native (body_attrs its);
  assemble attrs (body_blocks its).

(* strings.TrimSpace on ASCII text *)
Definition space_char (c : ascii) : bool := Ascii.eqb c " " || char_in 9 13 c.
Fixpoint trim_left (s : string) : string :=
  match s with "" => "" | String c s' => if space_char c then trim_left s' else s end.
Fixpoint trim_right (s : string) : string :=
  match s with
  | "" => ""
  | String c s' => match trim_right s' with
                   | "" => if space_char c then "" else str1 c
                   | t => String c t
                   end
  end.
Definition trim (s : string) : string := trim_right (trim_left s).
Fixpoint last_char (s : string) : option ascii :=
  match s with "" => None | String c "" => Some c | String _ s' => last_char s' end.

Definition first_expr (its : list item) : option expr :=
  match body_attrs its with (k, e) :: _ => if String.eqb k "x" then Some e else None | [] => None end.

(* decodeMap, mapslice.go:34-45.  Indexing the empty string at line 36 panics. *)
Definition decode_map (s : string) : result native :=
  match trim s with
  | "" => Panic "index out of range"
  | String c r =>
    if Ascii.eqb c "{" && match last_char (String c r) with Some l => Ascii.eqb l "}" | None => false end then
      do its <- parse_config ("x = " +++ s);
      match first_expr its with
      | Some (EObj m) => expr_native (EObj m)
      | _ => Err "not resolvable"
      end
    else do its <- parse_config s; decode_body its
  end.

(* decodeSlice, mapslice.go:13-32 *)
Definition decode_slice (s : string) : result native :=
  do its <- parse_config ("x = " +++ s);
  match first_expr its with
  | Some (ETuple l) => expr_native (ETuple l)
  | _ => Err "not resolvable"
  end.
