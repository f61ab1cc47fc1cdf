(* Specification and proofs: how far from itself a fraction comes back (C85). *)

From Coq Require Import Lia QArith Qabs Lqa.
From Verif Require Import Base CtyModel CtySpec CtyProofs HclModel HclSpec HclNumber HclRound HclGrammar HclFraction.
Local Open Scope Q_scope.

(* The number a native value is. *)
Inductive denotes : native -> dyadic -> Prop :=
| de_int z : denotes (NInt z) (mkD z 0)
| de_int64 z : denotes (NInt64 z) (mkD z 0)
| de_f32 d : denotes (NF32 d) d
| de_f64 d : denotes (NF64 d) d.
(* x is at most four millionths further from d than f is. *)
Definition close_as (x d f : dyadic) : Prop :=
  (Z.abs (num x * pow2 (den d) - num d * pow2 (den x)) * pow2 (den f) * 1000000
   <= (Z.abs (num f * pow2 (den d) - num d * pow2 (den f)) * 1000000 + 4 * pow2 (den d) * pow2 (den f)) * pow2 (den x))%Z.

(* ----- *)

Definition qv (d : dyadic) : Q := num d # Z.to_pos (pow2 (den d)).
Lemma pow2_pos : forall n, (0 < pow2 n)%Z.
Proof. intro n. unfold pow2. apply Z.pow_pos_nonneg; lia. Qed.
Lemma qabs_sub : forall a p b q, Qabs ((a # p) - (b # q)) = Z.abs (a * Z.pos q - b * Z.pos p) # (p * q).
Proof.
  intros. unfold Qminus, Qplus, Qopp, Qabs. cbn [Qnum Qden]. f_equal. f_equal. lia.
Qed.
Lemma nearest_q : forall f r d y, nearest f r d -> representable f y -> Qabs (qv r - qv d) <= Qabs (qv y - qv d).
Proof.
  intros f r d y N R. specialize (N y R). unfold qv. rewrite !qabs_sub. unfold Qle. cbn [Qnum Qden].
  pose proof (pow2_pos (den r)). pose proof (pow2_pos (den d)). pose proof (pow2_pos (den y)).
  rewrite !Pos2Z.inj_mul, !Z2Pos.id by assumption. nia.
Qed.
Lemma millionths_q : forall d m, millionths d m -> Qabs (qv d - (m # 1000000)) <= 1 # 2000000.
Proof.
  intros d m M. unfold millionths in M. unfold qv. rewrite qabs_sub. unfold Qle. cbn [Qnum Qden].
  pose proof (pow2_pos (den d)). rewrite !Pos2Z.inj_mul, !Z2Pos.id by assumption. nia.
Qed.
Lemma decimal_q : forall m y, bits 512 y -> Qabs (qv (decimal m 6) - (m # 1000000)) <= Qabs (qv y - (m # 1000000)).
Proof.
  intros m y B. pose proof (decimal_nearest m 6 y B) as N. unfold qv. rewrite !qabs_sub. unfold Qle. cbn [Qnum Qden].
  change (10 ^ Z.of_nat 6)%Z with 1000000%Z in N.
  pose proof (pow2_pos (den y)). pose proof (pow2_pos (den (decimal m 6))).
  rewrite !Pos2Z.inj_mul, !Z2Pos.id by assumption. nia.
Qed.
Lemma bits_of_float : forall f d, (0 <= prec f <= 512)%Z -> representable f d -> bits 512 d.
Proof.
  intros f d P (n & q & A & _ & E & _). exists n, q. split; [|exact E].
  apply Z.lt_le_trans with (1 := A). apply Z.pow_le_mono_r; lia.
Qed.
Lemma fraction_small : forall f d, (0 <= prec f)%Z -> representable f d -> ~ whole d -> qv d <= inject_Z (2 ^ prec f).
Proof.
  intros f d P (n & q & A & _ & E & _) W. unfold qv, Qle, inject_Z. cbn [Qnum Qden].
  pose proof (pow2_pos (den d)) as D. rewrite Z2Pos.id by assumption. rewrite Z.mul_1_r.
  destruct (Z_lt_le_dec q 0) as [L|L].
  - rewrite (Z.max_r 0 (- q)) in E by lia. rewrite (Z.max_l 0 q) in E by lia. change (2 ^ 0)%Z with 1%Z in E. fold (pow2 (den d)) in E.
    assert (K : (0 < 2 ^ (- q))%Z) by (apply Z.pow_pos_nonneg; lia).
    destruct (Z_le_gt_dec (num d) 0); [|nia]. assert (0 < 2 ^ prec f)%Z by (apply Z.pow_pos_nonneg; lia). nia.
  - exfalso. apply W. rewrite (Z.max_l 0 (- q)) in E by lia. rewrite (Z.max_r 0 q) in E by lia. change (2 ^ 0)%Z with 1%Z in E.
    exists (n * 2 ^ q)%Z. unfold is_whole. lia.
Qed.
Lemma float_up : forall x, representable float32 x -> representable float64 x.
Proof.
  intros x (n & q & A & B & C & D). exists n, q. cbn [prec last_place bound float32 float64] in *. split; [lia|split; [lia|split; [exact C|]]].
  apply Z.lt_trans with (1 := D). apply Z.mul_lt_mono_pos_r; [apply Z.pow_pos_nonneg; lia|]. apply Z.pow_lt_mono_r; lia.
Qed.

Lemma tri : forall a b c, Qabs (a - c) <= Qabs (a - b) + Qabs (b - c).
Proof.
  intros a b c. setoid_replace (a - c) with ((a - b) + (b - c)) by ring. apply Qabs_triangle.
Qed.
Lemma sym : forall a b, Qabs (a - b) == Qabs (b - a).
Proof. intros. rewrite Qabs_Qminus. reflexivity. Qed.

(* u is what was written, as m millionths. *)
Lemma read_close : forall u m w f, qv u <= inject_Z (2 ^ 54) -> representable float64 u -> millionths u m -> representable float32 f ->
  literal_native (decimal m 6) w ->
  exists x, denotes w x /\ Qabs (qv x - qv u) <= Qabs (qv f - qv u) + (4 # 1000000).
Proof.
  intros u m w f S R M F L. set (z := decimal m 6) in *.
  pose proof (millionths_q u m M) as M1.
  assert (B : bits 512 u) by (apply bits_of_float with float64; [cbn; lia|exact R]).
  pose proof (decimal_q m u B) as M2. fold z in M2.
  assert (Z1 : Qabs (qv z - qv u) <= 1 # 1000000).
  { pose proof (tri (qv z) (m # 1000000) (qv u)). rewrite (sym (m # 1000000) (qv u)) in H. lra. }
  pose proof (Qabs_nonneg (qv f - qv u)) as P.
  destruct L as [i v W I N|n y x W G N RN LE NY RY NX RX|n y W G N RN LT NY RY|W LE LT].
  - exists (mkD i 0). split; [destruct N as [[-> _]|[-> _]]; constructor|].
    assert (Q : qv (mkD i 0) == qv z).
    { unfold qv, Qeq. cbn [Qnum Qden num den]. unfold is_whole in W. pose proof (pow2_pos (den z)). rewrite Z2Pos.id by assumption.
      unfold pow2 in *. change (Z.to_pos (2 ^ Z.of_nat 0)) with 1%positive. lia. }
    rewrite Q. lra.
  - exists x. split; [constructor|].
    pose proof (nearest_q _ _ _ u NY R) as A1. pose proof (nearest_q _ _ _ f NX F) as A2.
    pose proof (tri (qv y) (qv z) (qv u)) as T1. pose proof (tri (qv f) (qv u) (qv y)) as T2. pose proof (tri (qv x) (qv y) (qv u)) as T3.
    rewrite (sym (qv u) (qv z)) in A1. rewrite (sym (qv u) (qv y)) in T2. lra.
  - exists y. split; [constructor|].
    pose proof (nearest_q _ _ _ u NY R) as A1. pose proof (tri (qv y) (qv z) (qv u)) as T1.
    rewrite (sym (qv u) (qv z)) in A1. lra.
  - exfalso.
    assert (Q : inject_Z ((2 ^ 25 - 1) * 2 ^ 103) <= qv z).
    { unfold le_num in LE. cbn [num den] in LE. change (pow2 0) with 1%Z in LE. unfold qv, Qle, inject_Z. cbn [Qnum Qden].
      pose proof (pow2_pos (den z)). rewrite Z2Pos.id by assumption. lia. }
    apply Qabs_Qle_condition in Z1. destruct Z1 as [_ Z1].
    assert (K : inject_Z (2 ^ 54) + (1 # 1000000) < inject_Z ((2 ^ 25 - 1) * 2 ^ 103)) by (vm_compute; reflexivity).
    lra.
Qed.

Definition zero_num : dyadic := mkD 0 0.
Lemma zero_rep : forall f, (0 < prec f)%Z -> (last_place f <= 0)%Z -> (0 < bound f)%Z -> representable f zero_num.
Proof.
  intros f P L B. exists 0%Z, 0%Z. cbn. assert (0 < 2 ^ prec f)%Z by (apply Z.pow_pos_nonneg; lia).
  assert (0 < 2 ^ bound f)%Z by (apply Z.pow_pos_nonneg; lia). repeat split; lia.
Qed.

Lemma q_close : forall w d f, Qabs (qv w - qv d) <= Qabs (qv f - qv d) + (4 # 1000000) -> close_as w d f.
Proof.
  intros w d f H. unfold close_as. unfold qv in H. rewrite !qabs_sub in H. unfold Qplus, Qle in H. cbn [Qnum Qden] in H.
  pose proof (pow2_pos (den w)). pose proof (pow2_pos (den d)). pose proof (pow2_pos (den f)).
  rewrite !Pos2Z.inj_mul, !Z2Pos.id in H by assumption.
  apply Z.mul_le_mono_pos_r with (p := pow2 (den d)); [assumption|]. lia.
Qed.

Theorem fraction_close : forall k v d, body_key k -> v = NF32 d \/ v = NF64 d ->
  (0 < num d)%Z -> ~ whole d -> representable float64 d ->
  exists t w x, marshal (NMap [(k, v)]) = Ok (Some t) /\ decode_map t = Ok (NMap [(k, w)]) /\ denotes w x
    /\ forall f, representable float32 f -> close_as x d f.
Proof.
  intros k v d K V P W R.
  destruct (fraction_back k v d K V P W R) as (u & m & t & w & U & M & E1 & E2 & L).
  pose proof (fraction_small float64 d ltac:(cbn; lia) R W) as S. cbn [prec float64] in S.
  assert (Z0 : qv zero_num == 0) by reflexivity.
  assert (PD : 0 <= qv d).
  { unfold qv, Qle. cbn [Qnum Qden]. lia. }
  assert (HU : representable float64 u /\ qv u <= inject_Z (2 ^ 54) /\ (forall f, representable float32 f -> Qabs (qv u - qv d) <= Qabs (qv f - qv d))
     /\ (qv u == qv d \/ representable float32 u)).
  { assert (K2 : inject_Z (2 ^ 54) == inject_Z (2 ^ 53) + inject_Z (2 ^ 53)) by (vm_compute; reflexivity).
    assert (K3 : 0 <= inject_Z (2 ^ 53)) by (vm_compute; discriminate).
    destruct U as [U|[_ ->]].
    - inversion U as [? ? ? ? ? NI|? ? _ _ _ RX NX _|]; subst.
      + destruct NI as [[? _]|[? _]]; discriminate.
      + split; [apply float_up; exact RX|]. split; [|split; [intros f F; exact (nearest_q _ _ _ f NX F)|right; exact RX]].
        pose proof (nearest_q _ _ _ zero_num NX (zero_rep float32 ltac:(cbn; lia) ltac:(cbn; lia) ltac:(cbn; lia))) as A.
        rewrite Z0 in A. rewrite (sym 0 (qv d)) in A. setoid_replace (qv d - 0) with (qv d) in A by ring. rewrite (Qabs_pos _ PD) in A.
        apply Qabs_Qle_condition in A. lra.
    - split; [exact R|]. split; [lra|]. split; [|left; reflexivity].
      intros f F. setoid_replace (qv d - qv d) with 0 by ring. apply Qabs_nonneg. }
  destruct HU as (RU & SU & NU & CU).
  destruct CU as [EQ|R32].
  - destruct (read_close u m w zero_num SU RU M (zero_rep float32 ltac:(cbn; lia) ltac:(cbn; lia) ltac:(cbn; lia)) L) as (x & D & _).
    exists t, w, x. repeat (split; [assumption|]). intros f F. apply q_close.
    destruct (read_close u m w f SU RU M F L) as (x' & D' & C'). assert (x' = x) by (destruct D; inversion D'; congruence). subst x'.
    rewrite EQ in C'. exact C'.
  - destruct (read_close u m w u SU RU M R32 L) as (x & D & C). exists t, w, x. repeat (split; [assumption|]). intros f F. apply q_close.
    setoid_replace (qv u - qv u) with 0 in C by ring. rewrite (Qabs_pos 0) in C by lra.
    pose proof (tri (qv x) (qv u) (qv d)). specialize (NU f F). lra.
Qed.
