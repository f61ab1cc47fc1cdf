(* What UUIDs mean, independently of the code (RFC 4122). *)

From Verif Require Import Base EncSpec.
From Coq Require Import NArith.

(* Bytes in hexadecimal, in letters of any size. *)
Inductive hex_any : string -> string -> Prop :=
| ha_nil : hex_any "" ""
| ha_cons h l x y t s : hex_digit h x -> hex_digit l y -> hex_any t s ->
    hex_any (String h (String l t)) (String (ascii_of_N (16 * x + y)) s).
(* Five groups of 4, 2, 2, 2 and 6 bytes; hex is how each is written. *)
Definition dashed (hex : string -> string -> Prop) (t u : string) : Prop :=
  exists a b c d e ta tb tc td te, hex ta a /\ hex tb b /\ hex tc c /\ hex td d /\ hex te e /\
    String.length a = 4 /\ String.length b = 2 /\ String.length c = 2 /\ String.length d = 2 /\ String.length e = 6 /\
    t = ta +++ "-" +++ tb +++ "-" +++ tc +++ "-" +++ td +++ "-" +++ te /\ u = a +++ b +++ c +++ d +++ e.

(* the same letters in any size *)
Inductive same_letters : string -> string -> Prop :=
| sl_nil : same_letters "" ""
| sl_same c s t : same_letters s t -> same_letters (String c s) (String c t)
| sl_large k s t : (k < 26)%N -> same_letters s t -> same_letters (String (ascii_of_N (65 + k)) s) (String (ascii_of_N (97 + k)) t).
(* The names of the namespaces of RFC 4122, appendix C, by their fourth byte. *)
Inductive space_name : string -> N -> Prop :=
| sn_dns : space_name "dns" 16
| sn_url : space_name "url" 17
| sn_oid : space_name "oid" 18
| sn_x500 : space_name "x500" 20.
Definition known_bytes (n : N) : string :=
  fold_right (fun k s => String (ascii_of_N k) s) "" [107; 167; 184; n; 157; 173; 17; 209; 128; 180; 0; 192; 79; 212; 48; 200]%N.
(* The ways to write a namespace. *)
Inductive namespace : string -> string -> Prop :=
| ns_name s n : space_name s n -> namespace s (known_bytes n)
| ns_plain t u : dashed hex_any t u -> namespace t u
| ns_urn p t u : same_letters p "urn:uuid:" -> dashed hex_any t u -> namespace (p +++ t) u
| ns_braces t u : dashed hex_any t u -> namespace (String "{" (t +++ "}")) u
| ns_digits t u : hex_any t u -> String.length u = 16 -> namespace t u.

(* The bits of a name-based UUID of version 5: those of the hash, with the version and the variant
   in their places. *)
Definition version5 (hash u : string) : Prop :=
  bits u = firstn 48 (bits hash) ++ [false; true; false; true] ++ firstn 12 (skipn 52 (bits hash)) ++ [true; false] ++ firstn 62 (skipn 66 (bits hash)).
(* The bits of a random UUID of version 4, which has a place for the version and the variant. *)
Definition version4 (u : string) : Prop :=
  firstn 4 (skipn 48 (bits u)) = [false; true; false; false] /\ firstn 2 (skipn 64 (bits u)) = [true; false].
(* The hashes agree in the bits that are kept. *)
Definition agree (h h' : string) : Prop :=
  firstn 48 (bits h) = firstn 48 (bits h') /\ firstn 12 (skipn 52 (bits h)) = firstn 12 (skipn 52 (bits h')) /\
  firstn 62 (skipn 66 (bits h)) = firstn 62 (skipn 66 (bits h')).
