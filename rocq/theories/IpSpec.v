(* Specification of textual addresses, independent of the parsers. *)

From Verif Require Import Base IpModel.

(* c is a digit of value d. *)
Inductive digit10 : ascii -> Z -> Prop :=
| d10 : forall c d, (0 <= d <= 9)%Z -> byte_of c = (48 + d)%Z -> digit10 c d.
Inductive digit16 : ascii -> Z -> Prop :=
| d16_dec : forall c d, digit10 c d -> digit16 c d
| d16_low : forall c d, (10 <= d <= 15)%Z -> byte_of c = (97 + d - 10)%Z -> digit16 c d
| d16_up : forall c d, (10 <= d <= 15)%Z -> byte_of c = (65 + d - 10)%Z -> digit16 c d.

(* s is a non-empty numeral in the given base with value n; leading zeros are allowed. *)
Inductive numeral (base : Z) (digit : ascii -> Z -> Prop) : string -> Z -> Prop :=
| num_one : forall c d, digit c d -> numeral base digit (String c "") d
| num_snoc : forall s n c d, numeral base digit s n -> digit c d ->
    numeral base digit (s +++ String c "") (n * base + d).
Definition decimal := numeral 10 digit10.
Definition hexadecimal := numeral 16 digit16.

(* Four decimal numbers up to 255 separated by dots. *)
Inductive quad : string -> list Z -> Prop :=
| quad_intro : forall sa sb sc sd a b c d,
    decimal sa a -> decimal sb b -> decimal sc c -> decimal sd d ->
    (a <= 255 -> b <= 255 -> c <= 255 -> d <= 255 ->
     quad (sa +++ "." +++ sb +++ "." +++ sc +++ "." +++ sd) [a; b; c; d])%Z.

(* Groups of hexadecimal numbers up to 0xffff separated by colons, two bytes each. *)
Inductive groups : string -> list Z -> Prop :=
| gr_one : forall s n, hexadecimal s n -> (n <= 65535)%Z -> groups s [n / 256; n mod 256]%Z
| gr_cons : forall s n r bs, hexadecimal s n -> (n <= 65535)%Z -> groups r bs ->
    groups (s +++ ":" +++ r) ((n / 256) :: (n mod 256) :: bs)%Z.
(* The same, possibly with a dotted quad as last group. *)
Inductive groups4 : string -> list Z -> Prop :=
| g4_groups : forall s bs, groups s bs -> groups4 s bs
| g4_quad : forall s bs, quad s bs -> groups4 s bs
| g4_cons : forall s n r bs, hexadecimal s n -> (n <= 65535)%Z -> groups4 r bs ->
    groups4 (s +++ ":" +++ r) ((n / 256) :: (n mod 256) :: bs)%Z.
Inductive opt (P : string -> list Z -> Prop) : string -> list Z -> Prop :=
| opt_none : opt P "" []
| opt_some : forall s bs, P s bs -> opt P s bs.

(* RFC 4291 text: 16 bytes, or fewer with one :: standing for one or more zero groups. *)
Inductive v6_text : string -> list Z -> Prop :=
| v6_full : forall s bs, groups4 s bs -> length bs = 16 -> v6_text s bs
| v6_short : forall sl sr bl br, opt groups sl bl -> opt groups4 sr br -> length bl + length br < 16 ->
    v6_text (sl +++ "::" +++ sr) (bl ++ repeat 0%Z (16 - length bl - length br) ++ br).

Definition v4_text (s : string) (ip : list Z) : Prop := exists q, quad s q /\ ip = v4_prefix ++ q.

(* A byte string as a big-endian number. *)
Definition number (bs : list Z) : Z := fold_left (fun a b => a * 256 + b)%Z bs 0%Z.
Definition bytes (bs : list Z) : Prop := forall b, In b bs -> (0 <= b <= 255)%Z.
