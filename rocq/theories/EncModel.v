(* Model of encoding.go and of the hash functions of crypto.go, both of internal/lang/funcs, with
   the parts of the Go library they rest on.

   Simplifications.  Strings are their bytes.  Logging is left out.  Errors of an argument lose
   its number.  Normalisation of text (cty.StringVal), hashing, compression and the text
   encodings are parameters.  The library is described from knowledge of it. *)

From Verif Require Import Base CtyModel FuncModel.
From Coq Require Import NArith.

(* ----- encoding/base64, StdEncoding (library) ----- *)

Definition alphabet : string := "ABCDEFGHIJKLMNOPQRSTUVWXYZabcdefghijklmnopqrstuvwxyz0123456789+/".
Definition byte_at (s : string) (n : nat) : ascii := match String.get n s with Some c => c | None => "000"%char end.
(* encode[val>>k&0x3F] *)
Definition symbol (val k : N) : ascii := byte_at alphabet (N.to_nat (N.land (N.shiftr val k) 63)).
Definition word (a b c : N) : N := N.lor (N.lor (N.shiftl a 16) (N.shiftl b 8)) c.
(* EncodeToString *)
Fixpoint encode64 (s : string) : string :=
  match s with
  | "" => ""
  | String a "" =>
    let val := N.shiftl (N_of_ascii a) 16 in
    String (symbol val 18) (String (symbol val 12) "==")
  | String a (String b "") =>
    let val := N.lor (N.shiftl (N_of_ascii a) 16) (N.shiftl (N_of_ascii b) 8) in
    String (symbol val 18) (String (symbol val 12) (String (symbol val 6) "="))
  | String a (String b (String c s')) =>
    let val := word (N_of_ascii a) (N_of_ascii b) (N_of_ascii c) in
    String (symbol val 18) (String (symbol val 12) (String (symbol val 6) (String (symbol val 0) (encode64 s'))))
  end.

(* decodeMap: the place of a byte in the alphabet *)
Fixpoint place (c : ascii) (s : string) (n : N) : option N :=
  match s with
  | "" => None
  | String d s' => if Ascii.eqb c d then Some n else place c s' (n + 1)%N
  end.
Definition decode_map64 (c : ascii) : option N := place c alphabet 0.
Definition is_newline (c : ascii) : bool := Ascii.eqb c "010" || Ascii.eqb c "013".
Fixpoint skip_newlines (s : string) : string :=
  match s with
  | String c s' => if is_newline c then skip_newlines s' else s
  | "" => ""
  end.
(* the three bytes of four symbols *)
Definition quad (a b c d : N) : N :=
  N.lor (N.lor (N.shiftl a 18) (N.shiftl b 12)) (N.lor (N.shiftl c 6) d).
Definition byte_of (val k : N) : ascii := ascii_of_N (N.land (N.shiftr val k) 255).
(* DecodeString, with decodeQuantum: the symbols of the unfinished group are kept in buf.  The
   position of the error is left out. *)
Fixpoint decode64 (buf : list N) (s : string) : option string :=
  match s with
  | "" => match buf with [] => Some "" | _ => None end
  | String c s' =>
    match decode_map64 c with
    | Some d =>
      match buf with
      | [a; b; e] =>
        let val := quad a b e d in
        match decode64 [] s' with
        | Some r => Some (String (byte_of val 16) (String (byte_of val 8) (String (byte_of val 0) r)))
        | None => None
        end
      | _ => decode64 (buf ++ [d]) s'
      end
    | None =>
      if is_newline c then decode64 buf s'
      else if negb (Ascii.eqb c "=") then None
      else match buf with
           | [a; b] =>
             match skip_newlines s' with
             | String c' s'' =>
               if Ascii.eqb c' "=" then
                 match skip_newlines s'' with
                 | "" => Some (String (byte_of (quad a b 0 0) 16) "")
                 | _ => None
                 end
               else None
             | "" => None
             end
           | [a; b; e] =>
             match skip_newlines s' with
             | "" => Some (String (byte_of (quad a b e 0) 16) (String (byte_of (quad a b e 0) 8) ""))
             | _ => None
             end
           | _ => None
           end
    end
  end.

(* ----- unicode/utf8: Valid (library) ----- *)

Definition in_range (lo hi : N) (c : ascii) : bool := N.leb lo (N_of_ascii c) && N.leb (N_of_ascii c) hi.
Definition cont (c : ascii) : bool := in_range 128 191 c.
Fixpoint utf8_valid (s : string) : bool :=
  match s with
  | "" => true
  | String a s1 =>
    if N.ltb (N_of_ascii a) 128 then utf8_valid s1
    else match s1 with
    | "" => false
    | String b s2 =>
      if in_range 194 223 a then cont b && utf8_valid s2
      else match s2 with
      | "" => false
      | String c s3 =>
        if in_range 224 239 a then
          (if N.eqb (N_of_ascii a) 224 then in_range 160 191 b
           else if N.eqb (N_of_ascii a) 237 then in_range 128 159 b
           else cont b) && cont c && utf8_valid s3
        else match s3 with
        | "" => false
        | String d s4 =>
          if in_range 240 244 a then
            (if N.eqb (N_of_ascii a) 240 then in_range 144 191 b
             else if N.eqb (N_of_ascii a) 244 then in_range 128 143 b
             else cont b) && cont c && cont d && utf8_valid s4
          else false
        end
      end
    end
  end.

(* ----- net/url: QueryEscape (library) ----- *)

Definition upper_hex (n : N) : ascii := byte_at "0123456789ABCDEF" (N.to_nat n).
(* shouldEscape for a query component *)
Definition keeps (c : ascii) : bool :=
  in_range 97 122 c || in_range 65 90 c || in_range 48 57 c ||
  Ascii.eqb c "-" || Ascii.eqb c "_" || Ascii.eqb c "." || Ascii.eqb c "~".
Fixpoint query_escape (s : string) : string :=
  match s with
  | "" => ""
  | String c s' =>
    if Ascii.eqb c " " then String "+" (query_escape s')
    else if keeps c then String c (query_escape s')
    else String "%" (String (upper_hex (N.shiftr (N_of_ascii c) 4))
           (String (upper_hex (N.land (N_of_ascii c) 15)) (query_escape s')))
  end.

(* ----- encoding/hex: EncodeToString (library) ----- *)

Definition lower_hex (n : N) : ascii := byte_at "0123456789abcdef" (N.to_nat n).
Fixpoint encode_hex (s : string) : string :=
  match s with
  | "" => ""
  | String c s' => String (lower_hex (N.shiftr (N_of_ascii c) 4)) (String (lower_hex (N.land (N_of_ascii c) 15)) (encode_hex s'))
  end.

Section Encoding.
(* norm.NFC.String, in cty.StringVal; fmt's %q *)
Variable nfc : string -> string.
Variable quoted : string -> string.
(* cty.StringVal (library) *)
Definition string_val (s : string) : value := str_val (nfc s).

(* Base64DecodeFunc, encoding.go:21-44 *)
Definition base64decode_func : func := mkFunc [mkParam str false false false true] None (static str)
  (fun args _ => match args with
   | [v] =>
     do s <- as_string (unmark v);
     match decode64 [] s with
     | None => Err ("failed to decode base64 data " +++ redact quoted s (marks_of v))
     | Some d =>
       if negb (utf8_valid d) then Err "the result of decoding the provided string is not valid UTF-8"
       else Ok (with_marks (marks_of v) (string_val d))
     end
   | _ => bad_args
   end).
(* Base64EncodeFunc, encoding.go:47-59 *)
Definition on_string (f : string -> string) : func := mkFunc [plain_param str] None (static str)
  (fun args _ => match args with
   | [v] => do s <- as_string v; Ok (string_val (f s))
   | _ => bad_args
   end).
Definition base64encode_func : func := on_string encode64.
(* URLEncodeFunc, encoding.go:182-194 *)
Definition urlencode_func : func := on_string query_escape.

(* ianaindex.IANA.Encoding and Name, and the encoder and decoder of an encoding (library) *)
Variable encoding : Type.
Variable iana : string -> option encoding.
Variable iana_name : encoding -> option string.
Variable encoder decoder : encoding -> string -> option string.
(* bytes.ContainsRune(b, utf8.RuneError) (library): it finds that character and what is not UTF-8 *)
Definition rune_error : string := String "239" (String "191" (String "189" "")).
Definition contains_rune_error (s : string) : bool := negb (utf8_valid s) || contains s rune_error.
Definition enc_name (e : encoding) (given : string) : string := match iana_name e with Some n => n | None => given end.
(* TextEncodeBase64Func, encoding.go:62-103 *)
Definition textencodebase64_func : func := mkFunc [plain_param str; plain_param str] None (static str)
  (fun args _ => match args with
   | [v; w] =>
     do n <- as_string w;
     match iana n with
     | None => Err (quoted n +++ " is not a supported IANA encoding name or alias in this Terraform version")
     | Some e =>
       do s <- as_string v;
       match encoder e s with
       | None => Err ("the given string contains characters that cannot be represented in " +++ enc_name e n)
       | Some b => Ok (string_val (encode64 b))
       end
     end
   | _ => bad_args
   end).
(* TextDecodeBase64Func, encoding.go:106-150, without the position at 135 *)
Definition textdecodebase64_func : func := mkFunc [plain_param str; plain_param str] None (static str)
  (fun args _ => match args with
   | [v; w] =>
     do n <- as_string w;
     match iana n with
     | None => Err (quoted n +++ " is not a supported IANA encoding name or alias in this Terraform version")
     | Some e =>
       do s <- as_string v;
       match decode64 [] s with
       | None => Err "the given value is has an invalid base64 symbol"
       | Some b =>
         match decoder e b with
         | None => Err ("the given string contains symbols that are not defined for " +++ enc_name e n)
         | Some d =>
           if contains_rune_error d then Err ("the given string contains symbols that are not defined for " +++ enc_name e n)
           else Ok (string_val d)
         end
       end
     end
   | _ => bad_args
   end).

(* gzip.NewWriter, Write, Flush and Close on a buffer (library), which do not fail *)
Variable gzip : string -> string.
(* Base64GzipFunc, encoding.go:154-179 *)
Definition base64gzip_func : func := on_string (fun s => encode64 (gzip s)).

(* makeStringHashFunction, crypto.go:224-242 (with the functions made by it) *)
Definition hash_func (h enc : string -> string) : func := on_string (fun s => enc (h s)).
End Encoding.
