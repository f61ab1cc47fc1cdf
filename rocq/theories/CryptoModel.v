(* Model of uuidv5, bcrypt and rsadecrypt of internal/lang/funcs/crypto.go, with the parts of
   github.com/google/uuid they rest on.

   Simplifications.  Strings are their bytes.  Errors of an argument lose its number.  The
   normalisation of text, SHA-1, the hash of passwords (of which only the checks of its arguments
   are described, with the salt it draws at random inside the parameter), private keys and RSA are
   parameters.  The libraries are described from knowledge of them. *)

From Verif Require Import Base CtyModel FuncModel EncModel.
From Coq Require Import NArith ZArith.

(* ----- google/uuid (library) ----- *)

(* xvalues, xtob *)
Definition xvalue (c : ascii) : option N :=
  if in_range 48 57 c then Some (N_of_ascii c - 48)%N
  else if in_range 65 70 c then Some (N_of_ascii c - 55)%N
  else if in_range 97 102 c then Some (N_of_ascii c - 87)%N
  else None.
Definition xtob (a b : ascii) : option ascii :=
  match xvalue a, xvalue b with
  | Some x, Some y => Some (ascii_of_N (N.lor (N.shiftl x 4) y))
  | _, _ => None
  end.
(* the bytes written at the given places *)
Fixpoint read_at (s : string) (l : list nat) : option string :=
  match l with
  | [] => Some ""
  | x :: l' =>
    match xtob (byte_at s x) (byte_at s (S x)), read_at s l' with
    | Some v, Some r => Some (String v r)
    | _, _ => None
    end
  end.
Definition dash_at (s : string) (n : nat) : bool := Ascii.eqb (byte_at s n) "-".
Definition bad_format : string := "invalid UUID format".
Definition read_all (s : string) (l : list nat) : result string :=
  match read_at s l with Some u => Ok u | None => Err bad_format end.
Definition read_dashed (s : string) : result string :=
  if dash_at s 8 && dash_at s 13 && dash_at s 18 && dash_at s 23
  then read_all s [0; 2; 4; 6; 9; 11; 14; 16; 19; 21; 24; 26; 28; 30; 32; 34] else Err bad_format.
(* strings.EqualFold with a text none of whose letters has other forms than the two in ASCII *)
Definition fold_char (c : ascii) : ascii := if in_range 65 90 c then ascii_of_N (N_of_ascii c + 32) else c.
Fixpoint fold_text (s : string) : string := match s with "" => "" | String c s' => String (fold_char c) (fold_text s') end.

Section Crypto.
Variable nfc : string -> string.
Variable quoted : string -> string.
(* strconv.Itoa *)
Variable itoa : Z -> string.
(* Parse *)
Definition uuid_parse (s : string) : result string :=
  let n := String.length s in
  if (n =? 36)%nat then read_dashed s
  else if (n =? 45)%nat then
    let p := substring 0 9 s in
    if String.eqb (fold_text p) "urn:uuid:" then read_dashed (substring 9 36 s) else Err ("invalid urn prefix: " +++ quoted p)
  else if (n =? 38)%nat then read_dashed (substring 1 37 s)
  else if (n =? 32)%nat then read_all s [0; 2; 4; 6; 8; 10; 12; 14; 16; 18; 20; 22; 24; 26; 28; 30]
  else Err ("invalid UUID length: " +++ itoa (Z.of_nat n)).

(* sha1.New, Write and Sum *)
Variable sha1 : string -> string.
Fixpoint change_byte (n : nat) (f : ascii -> ascii) (s : string) : string :=
  match n, s with
  | O, String c s' => String (f c) s'
  | S n', String c s' => String c (change_byte n' f s')
  | _, "" => ""
  end.
Definition set_version (c : ascii) : ascii := ascii_of_N (N.lor (N.land (N_of_ascii c) 15) (N.shiftl (N.land 5 15) 4)).
Definition set_variant (c : ascii) : ascii := ascii_of_N (N.lor (N.land (N_of_ascii c) 63) 128).
(* NewSHA1, NewHash *)
Definition new_sha1 (space data : string) : string :=
  change_byte 8 set_variant (change_byte 6 set_version (substring 0 16 (sha1 (space +++ data)))).
(* UUID.String, encodeHex *)
Definition uuid_string (u : string) : string :=
  encode_hex (substring 0 4 u) +++ "-" +++ encode_hex (substring 4 2 u) +++ "-" +++ encode_hex (substring 6 2 u) +++ "-" +++
  encode_hex (substring 8 2 u) +++ "-" +++ encode_hex (substring 10 6 u).

(* NameSpaceDNS and the others are Must(Parse(...)) of these texts *)
Definition known_space (s : string) : option string :=
  if String.eqb s "dns" then Some "6ba7b810-9dad-11d1-80b4-00c04fd430c8"
  else if String.eqb s "url" then Some "6ba7b811-9dad-11d1-80b4-00c04fd430c8"
  else if String.eqb s "oid" then Some "6ba7b812-9dad-11d1-80b4-00c04fd430c8"
  else if String.eqb s "x500" then Some "6ba7b814-9dad-11d1-80b4-00c04fd430c8"
  else None.
(* the switch, crypto.go:57-70 *)
Definition namespace_of (s : string) : result string :=
  match known_space s with
  | Some t => uuid_parse t
  | None =>
    match uuid_parse s with
    | Err e => Err ("uuidv5() doesn't support namespace " +++ s +++ " (" +++ e +++ ")")
    | r => r
    end
  end.
(* UUIDV5Func, crypto.go:42-74 *)
Definition uuidv5_func : func := mkFunc [plain_param str; plain_param str] None (static str)
  (fun args _ => match args with
   | [v; w] =>
     do s <- as_string v; do ns <- namespace_of s;
     do val <- as_string w;
     Ok (string_val nfc (uuid_string (new_sha1 ns val)))
   | _ => bad_args
   end).

(* UUIDFunc, crypto.go:29-40, with GenerateUUID of go-uuid (library): 16 random bytes, which may
   fail, in hexadecimal *)
Definition uuid_func (random : result string) : func := mkFunc [] None (static str)
  (fun args _ => match args with
   | [] => do b <- random; Ok (string_val nfc (uuid_string b))
   | _ => bad_args
   end).

(* ----- bcrypt ----- *)

(* bcrypt.GenerateFromPassword (library): the checks of the arguments; blowfish is the rest *)
Variable blowfish : string -> Z -> string.
Definition generate_from_password (p : string) (cost : Z) : result string :=
  if (72 <? String.length p)%nat then Err "bcrypt: password length exceeds 72 bytes"
  else
    let cost := if (cost <? 4)%Z then 10%Z else cost in
    if (31 <? cost)%Z then Err ("crypto/bcrypt: cost " +++ itoa cost +++ " is outside allowed range (4,31)")
    else Ok (blowfish p cost).
(* BcryptFunc, crypto.go:97-133 *)
Definition bcrypt_func : func := mkFunc [plain_param str] (Some (plain_param numt)) (static str)
  (fun args _ => match args with
   | v :: rest =>
     do cost <- match rest with c :: _ => to_int c | [] => Ok 10%Z end;
     match rest with
     | _ :: _ :: _ => Err "bcrypt() takes no more than two arguments"
     | _ =>
       do input <- as_string v;
       match generate_from_password input cost with
       | Ok out => Ok (string_val nfc out)
       | Err e => Err ("error occured generating password " +++ e)
       | Panic p => Panic p
       end
     end
   | [] => bad_args
   end).

(* ----- rsadecrypt ----- *)

(* ssh.ParseRawPrivateKey: a key for RSA or another one, or the message made of the error at
   crypto.go:168-179; rsa.DecryptPKCS1v15 (library) *)
Variable key : Type.
Variable parse_key : string -> result (option key).
Variable decrypt : key -> string -> result string.
(* RsaDecryptFunc, crypto.go:145-192 *)
Definition rsadecrypt_func : func := mkFunc [plain_param str; plain_param str] None (static str)
  (fun args _ => match args with
   | [v; w] =>
     do s <- as_string v; do k <- as_string w;
     match decode64 [] s with
     | None => Err ("failed to decode input " +++ quoted s +++ ": cipher text must be base64-encoded")
     | Some b =>
       do raw <- parse_key k;
       match raw with
       | None => Err "invalid private key type"
       | Some p =>
         match decrypt p b with
         | Ok out => Ok (string_val nfc out)
         | Err e => Err ("failed to decrypt: " +++ e)
         | Panic x => Panic x
         end
       end
     end
   | _ => bad_args
   end).
End Crypto.
