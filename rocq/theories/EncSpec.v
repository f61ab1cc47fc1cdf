(* What the encodings mean, independently of the code. *)

From Verif Require Import Base.
From Coq Require Import NArith.

(* ----- bits, the most significant first ----- *)

Definition byte_bits (c : ascii) : list bool :=
  match c with Ascii b0 b1 b2 b3 b4 b5 b6 b7 => [b7; b6; b5; b4; b3; b2; b1; b0] end.
Fixpoint bits (s : string) : list bool :=
  match s with "" => [] | String c s' => byte_bits c ++ bits s' end.
Definition six (n : N) : list bool := [N.testbit n 5; N.testbit n 4; N.testbit n 3; N.testbit n 2; N.testbit n 1; N.testbit n 0].

(* ----- base 64, RFC 4648 section 4 ----- *)

Inductive symbol_of : ascii -> N -> Prop :=
| sy_upper k : (k < 26)%N -> symbol_of (ascii_of_N (65 + k)) k
| sy_lower k : (k < 26)%N -> symbol_of (ascii_of_N (97 + k)) (26 + k)
| sy_digit k : (k < 10)%N -> symbol_of (ascii_of_N (48 + k)) (52 + k)
| sy_plus : symbol_of "+" 62
| sy_slash : symbol_of "/" 63.
(* the bits that symbols stand for *)
Inductive symbols : string -> list bool -> Prop :=
| ss_nil : symbols "" []
| ss_cons c n s l : symbol_of c n -> symbols s l -> symbols (String c s) (six n ++ l).
(* t says s; some bits are left over at the end. *)
Definition base64 (t s : string) (rest : list bool) : Prop :=
  exists u pad, t = u +++ pad /\ symbols u (bits s ++ rest) /\
    (pad = "" /\ List.length rest = 0 \/ pad = "=" /\ List.length rest = 2 \/ pad = "==" /\ List.length rest = 4).
(* without line ends *)
Fixpoint one_line (s : string) : string :=
  match s with
  | "" => ""
  | String c s' => if Ascii.eqb c "010" || Ascii.eqb c "013" then one_line s' else String c (one_line s')
  end.

(* ----- UTF-8, RFC 3629 ----- *)

Definition scalar_value (cp : N) : Prop := (cp < 55296 \/ (57344 <= cp /\ cp <= 1114111))%N.
Definition byte (n : N) : string := String (ascii_of_N n) "".
Definition utf8_of (cp : N) : string :=
  if (cp <? 128)%N then byte cp
  else if (cp <? 2048)%N then byte (192 + cp / 64) +++ byte (128 + cp mod 64)
  else if (cp <? 65536)%N then byte (224 + cp / 4096) +++ byte (128 + (cp / 64) mod 64) +++ byte (128 + cp mod 64)
  else byte (240 + cp / 262144) +++ byte (128 + (cp / 4096) mod 64) +++ byte (128 + (cp / 64) mod 64) +++ byte (128 + cp mod 64).
Inductive utf8 : string -> Prop :=
| u_nil : utf8 ""
| u_cons cp s : scalar_value cp -> utf8 s -> utf8 (utf8_of cp +++ s).

Inductive ascii_text : string -> Prop :=
| at_nil : ascii_text ""
| at_cons c s : (N_of_ascii c < 128)%N -> ascii_text s -> ascii_text (String c s).
(* Normalisation leaves ASCII alone. *)
Definition ascii_stays (nfc : string -> string) : Prop := forall s, ascii_text s -> nfc s = s.

(* ----- forms in URLs ----- *)

Inductive hex_digit : ascii -> N -> Prop :=
| hx_digit k : (k < 10)%N -> hex_digit (ascii_of_N (48 + k)) k
| hx_upper k : (k < 6)%N -> hex_digit (ascii_of_N (65 + k)) (10 + k)
| hx_lower k : (k < 6)%N -> hex_digit (ascii_of_N (97 + k)) (10 + k).
(* what a reader of the text takes it for *)
Inductive form_text : string -> string -> Prop :=
| f_nil : form_text "" ""
| f_keep c t s : c <> "+"%char -> c <> "%"%char -> form_text t s -> form_text (String c t) (String c s)
| f_space t s : form_text t s -> form_text (String "+" t) (String " " s)
| f_escape h l x y t s : hex_digit h x -> hex_digit l y -> form_text t s ->
    form_text (String "%" (String h (String l t))) (String (ascii_of_N (16 * x + y)) s).
(* letters, digits and a few marks: no character with a meaning in URLs *)
Inductive safe_char : ascii -> Prop :=
| sc_upper k : (k < 26)%N -> safe_char (ascii_of_N (65 + k))
| sc_lower k : (k < 26)%N -> safe_char (ascii_of_N (97 + k))
| sc_digit k : (k < 10)%N -> safe_char (ascii_of_N (48 + k))
| sc_mark c : c = "-"%char \/ c = "_"%char \/ c = "."%char \/ c = "~"%char \/ c = "+"%char \/ c = "%"%char -> safe_char c.

Inductive all_chars (P : ascii -> Prop) : string -> Prop :=
| ac_nil : all_chars P ""
| ac_cons c s : P c -> all_chars P s -> all_chars P (String c s).

(* ----- hexadecimal ----- *)

(* in small letters *)
Definition small_digit (h : ascii) (x : N) : Prop := hex_digit h x /\ (N_of_ascii h < 65 \/ 97 <= N_of_ascii h)%N.
Inductive hex_text : string -> string -> Prop :=
| h_nil : hex_text "" ""
| h_cons h l x y t s : small_digit h x -> small_digit l y -> hex_text t s ->
    hex_text (String h (String l t)) (String (ascii_of_N (16 * x + y)) s).
