(* Model of encoding/json on generic Go data, as far as package convert uses it: Marshal of
   maps, slices and scalars, and Unmarshal into a map[string]interface{}.

   encoding/json is in Go's standard library and not in the repository: all of this is a
   description of that library.  Simplifications: strings are ASCII; a number with a fraction
   or an exponent, and a float with an absolute value above 2^53, or 2^24 if it is a float32,
   is refused with an error that starts with "unmodelled". *)

From Verif Require Import Base CtyModel HclModel.

(* ----- Marshal (library) ----- *)

Definition hex_digit (n : nat) : ascii :=
  match n with
  | 0 => "0" | 1 => "1" | 2 => "2" | 3 => "3" | 4 => "4" | 5 => "5" | 6 => "6" | 7 => "7"
  | 8 => "8" | 9 => "9" | 10 => "a" | 11 => "b" | 12 => "c" | 13 => "d" | 14 => "e" | _ => "f"
  end%char.

(* appendString with HTML escapes, as since Go 1.22 *)
Definition json_char (c : ascii) : string :=
  if Ascii.eqb c """" then "\" +++ quote
  else if Ascii.eqb c "\" then "\\"
  else if Ascii.eqb c "008" then "\b"
  else if Ascii.eqb c "012" then "\f"
  else if Ascii.eqb c "010" then "\n"
  else if Ascii.eqb c "013" then "\r"
  else if Ascii.eqb c "009" then "\t"
  else if Nat.ltb (nat_of_ascii c) 32 || Ascii.eqb c "<" || Ascii.eqb c ">" || Ascii.eqb c "&" then
    "\u00" +++ String (hex_digit (Nat.div (nat_of_ascii c) 16)) (str1 (hex_digit (Nat.modulo (nat_of_ascii c) 16)))
  else str1 c.
Fixpoint json_chars (s : string) : string :=
  match s with "" => "" | String c s' => json_char c +++ json_chars s' end.
Fixpoint ascii_only (s : string) : bool :=
  match s with "" => true | String c s' => Nat.ltb (nat_of_ascii c) 128 && ascii_only s' end.
Definition json_string (s : string) : result string :=
  if ascii_only s then Ok (quote +++ json_chars s +++ quote) else Err "unmodelled string".

(* floatEncoder: whole numbers of up to 53 bits, for float32 of up to 24, are written as integers. *)
Definition json_float (bits : Z) (d : dyadic) : result string :=
  if (num d mod pow2 (den d) =? 0)%Z && (Z.abs (num d / pow2 (den d)) <=? 2 ^ bits)%Z
  then Ok (dec_Z (num d / pow2 (den d))) else Err "unmodelled number".

(* mapEncoder sorts the keys. *)
Fixpoint put_sorted {A} (k : string) (x : A) (l : list (string * A)) : list (string * A) :=
  match l with
  | [] => [(k, x)]
  | (k', x') :: l' => if String.leb k k' then (k, x) :: l else (k', x') :: put_sorted k x l'
  end.
Fixpoint sort_keys {A} (l : list (string * A)) : list (string * A) :=
  match l with [] => [] | (k, x) :: l' => put_sorted k x (sort_keys l') end.

Fixpoint member_texts (l : list (string * string)) : result (list string) :=
  match l with
  | [] => Ok []
  | (k, t) :: l' => do q <- json_string k; do r <- member_texts l'; Ok ((q +++ ":" +++ t) :: r)
  end.

(* json.Marshal *)
Fixpoint json_marshal (v : native) : result string :=
  match v with
  | NNil | NNilMap | NNilList => Ok "null"
  | NStr s => json_string s
  | NBool b => Ok (if b then "true" else "false")
  | NInt z | NInt64 z => Ok (dec_Z z)
  | NF32 d => json_float 24 d
  | NF64 d => json_float 53 d
  | NInf32 => Err "json: unsupported value: +Inf"
  | NMap m =>
    do l <- (fix go (m : list (string * native)) : result (list (string * string)) :=
      match m with
      | [] => Ok []
      | (k, x) :: m' => do t <- json_marshal x; do r <- go m'; Ok ((k, t) :: r)
      end) m;
    do ts <- member_texts (sort_keys l);
    Ok ("{" +++ join "," ts +++ "}")
  | NList l =>
    do ts <- (fix go (l : list native) : result (list string) :=
      match l with
      | [] => Ok []
      | x :: l' => do t <- json_marshal x; do r <- go l'; Ok (t :: r)
      end) l;
    Ok ("[" +++ join "," ts +++ "]")
  end.

(* ----- scanning (library) ----- *)

Inductive jtoken := JStr (s : string) | JNum (z : Z) | JWord (s : string) | JSym (c : ascii).

(* Between tokens, in a word, after a minus sign, in a number (its sign, the number so far and
   whether it may go on), in a string, after a backslash, in a \u escape (digits so far). *)
Inductive jstate :=
| JNone | JInWord (acc : string) | JMinus | JInNum (neg : bool) (z : Z) (more : bool)
| JInStr (acc : string) | JEsc (acc : string) | JHex (acc : string) (n : nat) (v : nat).

Definition hex_value (c : ascii) : option nat :=
  if digit_char c then Some (nat_of_ascii c - 48)
  else if char_in 97 102 c then Some (nat_of_ascii c - 87)
  else if char_in 65 70 c then Some (nat_of_ascii c - 55)
  else None.
Definition symbol (c : ascii) : bool :=
  Ascii.eqb c "{" || Ascii.eqb c "}" || Ascii.eqb c "[" || Ascii.eqb c "]" || Ascii.eqb c ":" || Ascii.eqb c ",".
Definition json_space (c : ascii) : bool :=
  Ascii.eqb c " " || Ascii.eqb c "009" || Ascii.eqb c "010" || Ascii.eqb c "013".

Definition jstep0 (c : ascii) : result (list jtoken * jstate) :=
  if json_space c then Ok ([], JNone)
  else if symbol c then Ok ([JSym c], JNone)
  else if Ascii.eqb c """" then Ok ([], JInStr "")
  else if Ascii.eqb c "-" then Ok ([], JMinus)
  else if digit_char c then Ok ([], JInNum false (digit_value c) (negb (Ascii.eqb c "0")))
  else if letter_char c then Ok ([], JInWord (str1 c))
  else Err "syntax: invalid character".

Definition jstep (st : jstate) (c : ascii) : result (list jtoken * jstate) :=
  match st with
  | JNone => jstep0 c
  | JInWord acc =>
    if letter_char c then Ok ([], JInWord (acc +++ str1 c))
    else do p <- jstep0 c; Ok (JWord acc :: fst p, snd p)
  | JMinus =>
    if digit_char c then Ok ([], JInNum true (digit_value c) (negb (Ascii.eqb c "0")))
    else Err "syntax: invalid character in numeric literal"
  | JInNum neg z more =>
    if digit_char c then
      if more then Ok ([], JInNum neg (z * 10 + digit_value c) more) else Err "syntax: digit after zero"
    else if Ascii.eqb c "." || Ascii.eqb c "e" || Ascii.eqb c "E" then Err "unmodelled fraction"
    else do p <- jstep0 c; Ok (JNum (if neg then - z else z) :: fst p, snd p)
  | JInStr acc =>
    if Ascii.eqb c """" then Ok ([JStr acc], JNone)
    else if Ascii.eqb c "\" then Ok ([], JEsc acc)
    else if Nat.ltb (nat_of_ascii c) 32 then Err "syntax: control character in string"
    else if Nat.ltb (nat_of_ascii c) 128 then Ok ([], JInStr (acc +++ str1 c))
    else Err "unmodelled string"
  | JEsc acc =>
    if Ascii.eqb c """" then Ok ([], JInStr (acc +++ quote))
    else if Ascii.eqb c "\" then Ok ([], JInStr (acc +++ "\"))
    else if Ascii.eqb c "/" then Ok ([], JInStr (acc +++ "/"))
    else if Ascii.eqb c "b" then Ok ([], JInStr (acc +++ str1 "008"))
    else if Ascii.eqb c "f" then Ok ([], JInStr (acc +++ str1 "012"))
    else if Ascii.eqb c "n" then Ok ([], JInStr (acc +++ nl))
    else if Ascii.eqb c "r" then Ok ([], JInStr (acc +++ str1 "013"))
    else if Ascii.eqb c "t" then Ok ([], JInStr (acc +++ str1 "009"))
    else if Ascii.eqb c "u" then Ok ([], JHex acc 0 0)
    else Err "syntax: invalid escape"
  | JHex acc n v =>
    match hex_value c with
    | None => Err "syntax: invalid \u escape"
    | Some d =>
      if Nat.eqb n 3 then
        if Nat.ltb (v * 16 + d) 128 then Ok ([], JInStr (acc +++ str1 (ascii_of_nat (v * 16 + d))))
        else Err "unmodelled string"
      else Ok ([], JHex acc (S n) (v * 16 + d))
    end
  end.

Fixpoint jscan (st : jstate) (s : string) : result (list jtoken) :=
  match s with
  | "" =>
    match st with
    | JNone => Ok []
    | JInWord acc => Ok [JWord acc]
    | JInNum neg z _ => Ok [JNum (if neg then - z else z)]
    | _ => Err "syntax: unexpected end"
    end
  | String c s' => do p <- jstep st c; do ts <- jscan (snd p) s'; Ok (fst p ++ ts)%list
  end.

(* ----- parsing (library) ----- *)

(* A number becomes the nearest float64. *)
Definition json_number (z : Z) : result native :=
  match round_to float64 (mkD z 0) with Some d => Ok (NF64 d) | None => Err "number out of range" end.

Fixpoint jvalue (n : nat) (ts : list jtoken) {struct n} : result (native * list jtoken) :=
  match n with
  | 0 => Err "unmodelled: out of fuel"
  | S n =>
    match ts with
    | JStr s :: r => Ok (NStr s, r)
    | JNum z :: r => do v <- json_number z; Ok (v, r)
    | JWord w :: r =>
      if String.eqb w "null" then Ok (NNil, r)
      else if String.eqb w "true" then Ok (NBool true, r)
      else if String.eqb w "false" then Ok (NBool false, r)
      else Err "syntax: invalid literal"
    | JSym "[" :: JSym "]" :: r => Ok (NList [], r)
    | JSym "[" :: r => do p <- jelems n r; Ok (NList (fst p), snd p)
    | JSym "{" :: JSym "}" :: r => Ok (NMap [], r)
    | JSym "{" :: r => do p <- jmembers n [] r; Ok (NMap (fst p), snd p)
    | _ => Err "syntax: looking for a value"
    end
  end
with jelems (n : nat) (ts : list jtoken) {struct n} : result (list native * list jtoken) :=
  match n with
  | 0 => Err "unmodelled: out of fuel"
  | S n =>
    do p <- jvalue n ts;
    match snd p with
    | JSym "]" :: r => Ok ([fst p], r)
    | JSym "," :: r => do q <- jelems n r; Ok (fst p :: fst q, snd q)
    | _ => Err "syntax: after array element"
    end
  end
(* A later member replaces an earlier one with the same key. *)
with jmembers (n : nat) (m : list (string * native)) (ts : list jtoken) {struct n}
  : result (list (string * native) * list jtoken) :=
  match n with
  | 0 => Err "unmodelled: out of fuel"
  | S n =>
    match ts with
    | JStr k :: JSym ":" :: r =>
      do p <- jvalue n r;
      match snd p with
      | JSym "}" :: r => Ok (insert k (fst p) m, r)
      | JSym "," :: r => jmembers n (insert k (fst p) m) r
      | _ => Err "syntax: after object member"
      end
    | _ => Err "syntax: looking for an object key"
    end
  end.

(* json.Unmarshal into a *map[string]interface{} that holds an empty map.  The document null
   sets it to nil. *)
Definition json_unmarshal (s : string) : result native :=
  do ts <- jscan JNone s;
  do p <- jvalue (S (List.length ts)) ts;
  match p with
  | (NMap m, []) => Ok (NMap m)
  | (NNil, []) => Ok NNilMap
  | (_, []) => Err "json: cannot unmarshal into Go value of type map[string]interface {}"
  | _ => Err "syntax: after top-level value"
  end.
