(* What a text says as a number, independent of how it is read. *)

From Verif Require Import Base CtyModel HclModel HclSpec.

Definition all_digits (a : string) : Prop := all_chars digit_char a = true.

Inductive sign_text : string -> Z -> Prop :=
| st_none : sign_text "" 1
| st_plus : sign_text "+" 1
| st_minus : sign_text "-" (-1).

(* Digits with at most one point, which is before the last k of them. *)
Definition mantissa_text (t : string) (m k : Z) : Prop :=
  exists a b, all_digits a /\ all_digits b /\ a +++ b <> ""
    /\ ((t = a /\ b = "") \/ t = a +++ "." +++ b)
    /\ m = digits_from 0 (a +++ b) /\ k = Z.of_nat (String.length b).

(* An exponent of ten or of two that is an int64. *)
Inductive exponent_text : string -> Z -> Z -> Prop :=
| xt_none : exponent_text "" 0 0
| xt_ten c sg i ds : c = "e"%char \/ c = "E"%char -> sign_text sg i -> all_digits ds -> ds <> "" ->
    (- 2 ^ 63 <= i * digits_from 0 ds < 2 ^ 63)%Z ->
    exponent_text (String c (sg +++ ds)) (i * digits_from 0 ds) 0
| xt_two c sg i ds : c = "p"%char \/ c = "P"%char -> sign_text sg i -> all_digits ds -> ds <> "" ->
    (- 2 ^ 63 <= i * digits_from 0 ds < 2 ^ 63)%Z ->
    exponent_text (String c (sg +++ ds)) 0 (i * digits_from 0 ds).

(* The text s says m * 10^t * 2^b. *)
Definition numeral (s : string) (m t b : Z) : Prop :=
  exists sg i man n k ex x, s = sg +++ man +++ ex
    /\ sign_text sg i /\ mantissa_text man n k /\ exponent_text ex x b
    /\ m = (i * n)%Z /\ t = (x - k)%Z.

Definition infinite_text (s : string) (negative : bool) : Prop :=
  if negative then s = "-Inf" \/ s = "-inf"
  else s = "Inf" \/ s = "inf" \/ s = "+Inf" \/ s = "+inf".

(* Exponents with which the reading is exact up to the rounding of the result. *)
Definition not_far (m t b : Z) : Prop :=
  (m = 0 \/ (-248 <= t <= 248 /\ exists e, 2 ^ (e - 1) <= Z.abs m < 2 ^ e /\ 0 < e /\ - 2 ^ 30 <= e + t + b <= 2 ^ 30))%Z.

(* m * 10^t * 2^b as a fraction *)
Definition over_line (m t b : Z) : Z := (m * (10 ^ Z.max 0 t * 2 ^ Z.max 0 b))%Z.
Definition under_line (t b : Z) : Z := (10 ^ Z.max 0 (- t) * 2 ^ Z.max 0 (- b))%Z.
(* No number of 512 bits is nearer to it than d. *)
Definition nearest_number (d : dyadic) (m t b : Z) : Prop := forall y, bits 512 y ->
  (Z.abs (num d * under_line t b - over_line m t b * pow2 (den d)) * pow2 (den y)
   <= Z.abs (num y * under_line t b - over_line m t b * pow2 (den y)) * pow2 (den d))%Z.
(* It is the whole number z. *)
Definition says_whole (m t b z : Z) : Prop := over_line m t b = (z * under_line t b)%Z.
