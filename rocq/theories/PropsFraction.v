(* C85: fractions in HCL text. *)

From Verif Require Import Base CtyModel CtySpec CtyProofs HclModel HclSpec HclNumber HclRound HclGrammar HclFraction HclExponent HclClose.
From Coq Require Import Lia.

(* A literal with a point is read as a nearest number of 512 bits to what it says. *)
Theorem C85_literal : forall m k y, bits 512 y ->
  (Z.abs (num (decimal m k) * 10 ^ Z.of_nat k - m * pow2 (den (decimal m k))) * pow2 (den y)
   <= Z.abs (num y * 10 ^ Z.of_nat k - m * pow2 (den y)) * pow2 (den (decimal m k)))%Z.
Proof. exact decimal_nearest. Qed.
Print Assumptions C85_literal.

Theorem C85_exact : forall m k y, bits 512 y -> (num y * 10 ^ Z.of_nat k = m * pow2 (den y))%Z ->
  same_num y (decimal m k).
Proof. exact decimal_exact. Qed.
Print Assumptions C85_exact.

(* Every decimal literal up to the largest int64 is accepted, and becomes an integer if it is
   one, else the float32 it rounds up to or the float64 it rounds to. *)
Theorem C85_read : forall k t m j, body_key k -> decimal_text t m j -> (m <= (2 ^ 63 - 1) * 10 ^ Z.of_nat j)%Z ->
  exists v, decode_map (doc_text [k +++ " = " +++ t]) = Ok (NMap [(k, v)]) /\ literal_native (decimal m j) v.
Proof. exact decimal_read. Qed.
Print Assumptions C85_read.

(* A literal with an exponent stands for its digits times the power of ten. *)
Theorem C85_exponent : forall k a f b e g i ds m x n j, body_key k ->
  a <> "" -> fraction f b -> digits 0 (a +++ b) m -> e = "e" \/ e = "E" -> exponent_sign g i -> ds <> "" -> digits 0 ds x ->
  power_of_ten m (i * x - Z.of_nat (String.length b)) n j -> (n <= (2 ^ 63 - 1) * 10 ^ Z.of_nat j)%Z ->
  exists v, decode_map (doc_text [k +++ " = " +++ a +++ f +++ e +++ g +++ ds]) = Ok (NMap [(k, v)]) /\ literal_native (decimal n j) v.
Proof. exact exponent_read. Qed.
Print Assumptions C85_exponent.

(* Positive multiples of 1/64 in 24 bits come back with their value, as float32. *)
Theorem C85_plain : forall k v d, body_key k -> v = NF32 d \/ v = NF64 d -> plain_fraction d ->
  exists t x, marshal (NMap [(k, v)]) = Ok (Some t) /\ decode_map t = Ok (NMap [(k, NF32 x)]) /\ same_num d x.
Proof. exact plain_back. Qed.
Print Assumptions C85_plain.

(* Every positive fraction comes back as what its millionths read as. *)
Theorem C85_back : forall k v d, body_key k -> v = NF32 d \/ v = NF64 d ->
  (0 < num d)%Z -> ~ whole d -> representable float64 d ->
  exists x m t w, (number_native d (NF32 x) \/ (number_native d (NF64 x) /\ x = d)) /\ millionths x m
    /\ marshal (NMap [(k, v)]) = Ok (Some t) /\ decode_map t = Ok (NMap [(k, w)]) /\ literal_native (decimal m 6) w.
Proof. exact fraction_back. Qed.
Print Assumptions C85_back.

(* It comes back at most four millionths further from where it was than any float32 is; and a
   float32, as the case f = d says, within four millionths. *)
Theorem C85_close : forall k v d, body_key k -> v = NF32 d \/ v = NF64 d ->
  (0 < num d)%Z -> ~ whole d -> representable float64 d ->
  exists t w x, marshal (NMap [(k, v)]) = Ok (Some t) /\ decode_map t = Ok (NMap [(k, w)]) /\ denotes w x
    /\ forall f, representable float32 f -> close_as x d f.
Proof. exact fraction_close. Qed.
Print Assumptions C85_close.
Theorem C85_near : forall k v d, body_key k -> v = NF32 d \/ v = NF64 d ->
  (0 < num d)%Z -> ~ whole d -> representable float32 d ->
  exists t w x, marshal (NMap [(k, v)]) = Ok (Some t) /\ decode_map t = Ok (NMap [(k, w)]) /\ denotes w x
    /\ (Z.abs (num x * pow2 (den d) - num d * pow2 (den x)) * 1000000 <= 4 * pow2 (den d) * pow2 (den x))%Z.
Proof.
  intros k v d K V P W R. destruct (C85_close k v d K V P W (float_up d R)) as (t & w & x & A & B & D & C).
  exists t, w, x. repeat (split; [assumption|]). specialize (C d R). unfold close_as in C.
  rewrite Z.sub_diag in C. cbn [Z.abs] in C. pose proof (pow2_pos (den d)). pose proof (pow2_pos (den x)).
  apply Z.mul_le_mono_pos_r with (p := pow2 (den d)); [assumption|]. lia.
Qed.
Print Assumptions C85_near.
(* The float32 next to a third comes back as the float64 next to 0.333333. *)
Example C85_near_sample : let d := mkD 11184811 25 in
  (0 < num d)%Z /\ ~ whole d /\ representable float32 d
  /\ exists x, marshal (NMap [("a", NF32 d)]) = Ok (Some (nl +++ "  a = 0.333333" +++ nl))
     /\ decode_map (nl +++ "  a = 0.333333" +++ nl) = Ok (NMap [("a", x)]).
Proof.
  split; [reflexivity|]. split; [|split].
  - intros (z & E). unfold is_whole in E. cbn [num den] in E. change (2 ^ Z.of_nat 25)%Z with 33554432%Z in E. lia.
  - exists 11184811%Z, (-25)%Z. cbn [prec last_place bound float32 num den]. repeat split; try lia; vm_compute; reflexivity.
  - eexists. split; vm_compute; reflexivity.
Qed.

(* Six and a half there and back; the float32 nearest to 0.7 is below it, that to 0.1 above. *)
Lemma half_plain : plain_fraction (mkD 13 1).
Proof.
  split; [reflexivity|]. split; [|split].
  - intros (z & E). unfold is_whole in E. cbn [num den] in E. change (2 ^ Z.of_nat 1)%Z with 2%Z in E. lia.
  - exists 13%Z, (-1)%Z. cbn [prec last_place bound float32 num den]. repeat split; try lia; vm_compute; reflexivity.
  - exists 416%Z. reflexivity.
Qed.
Example C85_sample :
  (exists t x, marshal (NMap [("a", NF64 (mkD 13 1))]) = Ok (Some t) /\ t = nl +++ "  a = 6.500000" +++ nl
     /\ decode_map t = Ok (NMap [("a", NF32 x)]) /\ same_num (mkD 13 1) x)
  /\ decimal_text "0.7" 7 1
  /\ (exists x, decode_map (doc_text ["a = 0.7"]) = Ok (NMap [("a", NF64 x)]))
  /\ (exists x, decode_map (doc_text ["a = 0.1"]) = Ok (NMap [("a", NF32 x)]))
  /\ decode_map (doc_text ["a = 12.000"]) = Ok (NMap [("a", NInt 12)])
  /\ decode_map (doc_text ["a = 1.25e3"; "b = 12E+0"; "c = [0.5e1, -2500e-2]"])
     = Ok (NMap [("a", NInt 1250); ("b", NInt 12); ("c", NList [NInt 5; NInt (-25)])])
  /\ (exists e, decode_map (doc_text ["a = 1e"]) = Err e).
Proof.
  split; [|split; [|split; [|split; [|split; [|split]]]]].
  - destruct (C85_plain "a" (NF64 (mkD 13 1)) (mkD 13 1)) as (t & x & E1 & E2 & E3);
      [split; [split; reflexivity|discriminate]|auto|exact half_plain|].
    exists t, x. split; [exact E1|]. split; [|split; assumption].
    vm_compute in E1. injection E1 as <-. reflexivity.
  - exists "0", "7". repeat split; discriminate.
  - eexists. vm_compute. reflexivity.
  - eexists. vm_compute. reflexivity.
  - vm_compute. reflexivity.
  - vm_compute. reflexivity.
  - eexists. vm_compute. reflexivity.
Qed.

(* Fractions below half a millionth come back as 0. *)
Theorem C85_lost_refuted : ~ forall k d t w, body_key k -> (0 < num d)%Z -> ~ whole d -> representable float32 d ->
  marshal (NMap [(k, NF32 d)]) = Ok (Some t) -> decode_map t = Ok (NMap [(k, w)]) -> w <> NInt 0.
Proof.
  intros H. apply (H "a" (mkD 1 22) (nl +++ "  a = 0.000000" +++ nl) (NInt 0)).
  - split; [split; reflexivity|discriminate].
  - reflexivity.
  - intros (z & E). unfold is_whole in E. cbn [num den] in E. assert (1 < 2 ^ Z.of_nat 22)%Z by reflexivity. nia.
  - exists 1%Z, (-22)%Z. cbn [prec last_place bound float32 num den]. repeat split; try lia; vm_compute; reflexivity.
  - vm_compute. reflexivity.
  - vm_compute. reflexivity.
  - reflexivity.
Qed.
Print Assumptions C85_lost_refuted.

(* Negative fractions are refused, in data and in text. *)
Theorem C85_negative_refuted :
  (exists e, marshal (NMap [("a", NF64 (mkD (-3) 1))]) = Err e) /\
  (exists e, decode_map (doc_text ["a = -1.5"]) = Err e) /\
  (exists v, decode_map (doc_text ["a = -1.0"]) = Ok (NMap [("a", v)])).
Proof. repeat split; eexists; vm_compute; reflexivity. Qed.
Print Assumptions C85_negative_refuted.

(* A fraction above the float32 range, though a float64 is near it, becomes infinite. *)
Theorem C85_infinite_refuted : let s := "a = 340282366920938463463374607431768211456.5" in
  decode_map (doc_text [s]) = Ok (NMap [("a", NInf32)]).
Proof. vm_compute. reflexivity. Qed.
Print Assumptions C85_infinite_refuted.
