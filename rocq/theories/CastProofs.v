(* Reading numbers. *)

From Verif Require Import Base CtyModel CtySpec CtyProofs CtyProofs2 HclModel HclSpec HclScan HclNumber HclFraction FuncModel FuncSpec FuncProofs CastModel CastSpec.
From Coq Require Import Lia ZifyBool.

Definition no_digit_first (r : string) : Prop := match r with "" => True | String c _ => digit_char c = false end.

Lemma take_digits_app : forall a m n r, all_digits a -> no_digit_first r ->
  take_digits m n (a +++ r) = (digits_from m a, (n + Z.of_nat (String.length a))%Z, r).
Proof.
  unfold all_digits. induction a as [|c a IH]; intros m n r Ha Hr.
  - cbn [append digits_from String.length]. rewrite Z.add_0_r. destruct r as [|d r]; [reflexivity|].
    cbn [take_digits]. cbn in Hr. rewrite Hr. reflexivity.
  - cbn [all_chars] in Ha. apply andb_true_iff in Ha as [Hc Ha]. cbn [append take_digits]. rewrite Hc.
    rewrite (IH _ _ _ Ha Hr). cbn [digits_from String.length].
    rewrite Nat2Z.inj_succ. do 2 f_equal. lia.
Qed.

Lemma take_digits_inv : forall s m n x j r, take_digits m n s = (x, j, r) ->
  exists a, s = a +++ r /\ all_digits a /\ no_digit_first r /\ x = digits_from m a /\ j = (n + Z.of_nat (String.length a))%Z.
Proof.
  unfold all_digits. induction s as [|c s IH]; intros m n x j r H.
  - cbn in H. inversion H. subst. exists "". cbn. repeat split. lia.
  - cbn [take_digits] in H. destruct (digit_char c) eqn:D.
    + destruct (IH _ _ _ _ _ H) as (a & -> & Ha & Hr & -> & ->). exists (String c a).
      cbn [append all_chars String.length digits_from]. rewrite D. repeat split; auto. lia.
    + assert (x = m /\ j = n /\ r = String c s) as (-> & -> & ->) by (repeat split; congruence).
      exists "". cbn [append all_chars String.length digits_from]. repeat split; auto. lia.
Qed.

Lemma app_nonempty : forall a b, a +++ b <> "" <-> (0 < String.length a + String.length b)%nat.
Proof.
  intros a b. rewrite <- length_append. destruct (a +++ b); cbn; split; intros H; try congruence; try lia.
Qed.

Definition point_char : ascii := ".".
Lemma point_no_digit : digit_char "." = false. Proof. reflexivity. Qed.

Lemma take_mantissa_app : forall t m k r, mantissa_text t m k -> no_digit_first r ->
  (forall q, r <> String "." q) -> take_mantissa (t +++ r) = Some (m, k, r).
Proof.
  intros t m k r (a & b & Ha & Hb & Hn & Ht & -> & ->) Hr Hp. unfold take_mantissa.
  apply app_nonempty in Hn. destruct Ht as [[-> ->] | ->].
  - rewrite (take_digits_app a 0 0 r Ha Hr). cbn [String.length] in Hn. rewrite append_nil_r. cbn [String.length].
    assert (E : match r with String "." q => take_digits (digits_from 0 a) 0 q | _ => (digits_from 0 a, 0%Z, r) end
                = (digits_from 0 a, 0%Z, r)).
    { destruct r as [|c q]; [reflexivity|]. destruct (ascii_dec c ".") as [->|N]; [elim (Hp q); reflexivity|].
      destruct c as [[] [] [] [] [] [] [] []]; try reflexivity. elim N. reflexivity. }
    rewrite E. replace (0 + Z.of_nat (String.length a) + 0 =? 0)%Z with false by lia. reflexivity.
  - rewrite append_assoc. cbn [append]. rewrite (take_digits_app a 0 0 (String "." (b +++ r)) Ha point_no_digit).
    cbn iota beta. rewrite (take_digits_app b _ 0 r Hb Hr). rewrite digits_app.
    replace (0 + Z.of_nat (String.length a) + (0 + Z.of_nat (String.length b)) =? 0)%Z with false by lia.
    rewrite Z.add_0_l. reflexivity.
Qed.

Lemma take_mantissa_inv : forall s m k r, take_mantissa s = Some (m, k, r) ->
  exists t, s = t +++ r /\ mantissa_text t m k.
Proof.
  intros s m k r H. unfold take_mantissa in H. destruct (take_digits 0 0 s) as [[x n] r1] eqn:E1.
  apply take_digits_inv in E1 as (a & -> & Ha & Hr & -> & ->).
  assert (C : (exists q, r1 = String "." q) \/
    (match r1 with String "." q => take_digits (digits_from 0 a) 0 q | _ => (digits_from 0 a, 0%Z, r1) end
      = (digits_from 0 a, 0%Z, r1))).
  { destruct r1 as [|c q]; [right; reflexivity|]. destruct (ascii_dec c ".") as [->|N]; [left; eauto|right].
    destruct c as [[] [] [] [] [] [] [] []]; try reflexivity. elim N. reflexivity. }
  destruct C as [(q & ->)|C].
  - destruct (take_digits (digits_from 0 a) 0 q) as [[y j] r2] eqn:E2.
    apply take_digits_inv in E2 as (b & -> & Hb & Hr2 & -> & ->).
    destruct (_ =? 0)%Z eqn:Z0; [discriminate|].
    assert (m = digits_from (digits_from 0 a) b /\ k = (0 + Z.of_nat (String.length b))%Z /\ r = r2) as (-> & -> & ->)
      by (repeat split; congruence).
    exists (a +++ "." +++ b). split; [rewrite !append_assoc; reflexivity|].
    exists a, b. rewrite digits_app. repeat split; auto. apply app_nonempty. lia.
  - rewrite C in H. destruct (_ =? 0)%Z eqn:Z0; [discriminate|].
    assert (m = digits_from 0 a /\ k = 0%Z /\ r = r1) as (-> & -> & ->) by (repeat split; congruence).
    exists a. split; [reflexivity|]. exists a, "". rewrite append_nil_r. repeat split; auto.
    intros E. subst a. cbn in Z0. lia.
Qed.

Definition no_sign_first (r : string) : Prop :=
  match r with "" => True | String c _ => c <> "-"%char /\ c <> "+"%char end.
Lemma take_sign_app : forall sg i r, sign_text sg i -> no_sign_first r ->
  take_sign (sg +++ r) = ((i <? 0)%Z, r).
Proof.
  intros sg i r H Hr. destruct H; [|reflexivity|reflexivity]. cbn [append].
  destruct r as [|c q]; [reflexivity|]. cbn in Hr. destruct Hr as [H1 H2].
  destruct c as [[] [] [] [] [] [] [] []]; try reflexivity; exfalso; first [apply H1; reflexivity|apply H2; reflexivity].
Qed.
Lemma take_sign_inv : forall s neg r, take_sign s = (neg, r) ->
  exists sg, s = sg +++ r /\ sign_text sg (if neg then -1 else 1).
Proof.
  intros s neg r H. destruct s as [|c q].
  - cbn in H. inversion H. exists "". split; [reflexivity|constructor].
  - destruct (ascii_dec c "-") as [->|N1]; [inversion H; subst; exists "-"; split; [reflexivity|constructor]|].
    destruct (ascii_dec c "+") as [->|N2]; [inversion H; subst; exists "+"; split; [reflexivity|constructor]|].
    assert (E : take_sign (String c q) = (false, String c q)).
    { destruct c as [[] [] [] [] [] [] [] []]; try reflexivity; exfalso; first [apply N1; reflexivity|apply N2; reflexivity]. }
    rewrite E in H. inversion H. subst. exists "". split; [reflexivity|constructor].
Qed.

Lemma digit_not_sign : forall c, digit_char c = true -> c <> "-"%char /\ c <> "+"%char.
Proof. intros c H. split; intros ->; discriminate H. Qed.
Lemma digits_no_sign : forall a r, all_digits a -> a <> "" -> no_sign_first (a +++ r).
Proof.
  intros [|c a] r H N; [elim N; reflexivity|]. unfold all_digits in H. cbn [all_chars] in H.
  apply andb_true_iff in H as [H _]. exact (digit_not_sign c H).
Qed.
Lemma mantissa_no_sign : forall t m k r, mantissa_text t m k -> no_sign_first (t +++ r).
Proof.
  intros t m k r (a & b & Ha & Hb & Hn & Ht & _). destruct Ht as [[-> ->] | ->].
  - apply digits_no_sign; [exact Ha|]. rewrite append_nil_r in Hn. exact Hn.
  - destruct a as [|c a]; [cbn; split; discriminate|]. rewrite append_assoc. apply digits_no_sign; [exact Ha|discriminate].
Qed.

Lemma digits_from_app_nil : forall ds, all_digits ds -> take_digits 0 0 ds = (digits_from 0 ds, Z.of_nat (String.length ds), "").
Proof. intros ds H. rewrite <- (append_nil_r ds) at 1. rewrite (take_digits_app ds 0 0 "" H Logic.I). reflexivity. Qed.

Lemma sign_value : forall sg i (x : Z), sign_text sg i -> (if (i <? 0)%Z then - x else x)%Z = (i * x)%Z.
Proof. intros sg i x H. destruct H; cbn [Z.ltb Z.compare]; lia. Qed.

Lemma take_exponent_app : forall ex x b, exponent_text ex x b -> take_exponent ex = Some (x, b, "").
Proof.
  intros ex x b H. destruct H as [|c sg i ds Hc Hs Hd Hn Hi|c sg i ds Hc Hs Hd Hn Hi].
  - reflexivity.
  - unfold take_exponent. assert (T : (Ascii.eqb c "e" || Ascii.eqb c "E") = true) by (destruct Hc; subst; reflexivity).
    cbv zeta. rewrite T. cbn [orb].
    rewrite (take_sign_app sg i ds Hs) by (rewrite <- (append_nil_r ds); apply digits_no_sign; assumption).
    rewrite (digits_from_app_nil ds Hd), (sign_value sg i _ Hs).
    replace (Z.of_nat (String.length ds) =? 0)%Z with false by (destruct ds; [elim Hn; reflexivity|cbn [String.length]; lia]).
    unfold min_int64, max_int64. replace ((i * digits_from 0 ds <? - 2 ^ 63)%Z) with false by lia.
    replace ((2 ^ 63 - 1 <? i * digits_from 0 ds)%Z) with false by lia. reflexivity.
  - unfold take_exponent. assert (T : (Ascii.eqb c "e" || Ascii.eqb c "E") = false) by (destruct Hc; subst; reflexivity).
    assert (T2 : (Ascii.eqb c "p" || Ascii.eqb c "P") = true) by (destruct Hc; subst; reflexivity).
    cbv zeta. rewrite T, T2. cbn [orb].
    rewrite (take_sign_app sg i ds Hs) by (rewrite <- (append_nil_r ds); apply digits_no_sign; assumption).
    rewrite (digits_from_app_nil ds Hd), (sign_value sg i _ Hs).
    replace (Z.of_nat (String.length ds) =? 0)%Z with false by (destruct ds; [elim Hn; reflexivity|cbn [String.length]; lia]).
    unfold min_int64, max_int64. replace ((i * digits_from 0 ds <? - 2 ^ 63)%Z) with false by lia.
    replace ((2 ^ 63 - 1 <? i * digits_from 0 ds)%Z) with false by lia. reflexivity.
Qed.

Lemma take_exponent_inv : forall s x b, take_exponent s = Some (x, b, "") -> exponent_text s x b.
Proof.
  intros s x b H. unfold take_exponent in H. destruct s as [|c q].
  - assert (x = 0 /\ b = 0)%Z as [-> ->] by (split; congruence). constructor.
  - cbv zeta in H. destruct ((Ascii.eqb c "e" || Ascii.eqb c "E")
      || (Ascii.eqb c "p" || Ascii.eqb c "P")) eqn:C; [|discriminate].
    destruct (take_sign q) as [neg r] eqn:S1. destruct (take_digits 0 0 r) as [[y n] r2] eqn:E.
    apply take_sign_inv in S1 as (sg & -> & Hs). apply take_digits_inv in E as (ds & -> & Hd & _ & -> & ->).
    destruct (_ || (max_int64 <? _)%Z) eqn:B in H; [discriminate|].
    apply orb_false_iff in B as [B B3]. apply orb_false_iff in B as [B1 B2]. unfold min_int64, max_int64 in B2, B3.
    assert (V : (if neg then - digits_from 0 ds else digits_from 0 ds)%Z = ((if neg then -1 else 1) * digits_from 0 ds)%Z)
      by (destruct neg; lia).
    rewrite V in H, B2, B3.
    assert (N : ds <> "") by (intros ->; cbn in B1; lia).
    assert (R : r2 = "") by (destruct (Ascii.eqb c "e" || Ascii.eqb c "E"); congruence). subst r2.
    rewrite append_nil_r. destruct (Ascii.eqb c "e" || Ascii.eqb c "E") eqn:T.
    + assert (x = (if neg then -1 else 1) * digits_from 0 ds /\ b = 0)%Z as [-> ->] by (split; congruence).
      constructor; auto; [|lia]. apply orb_true_iff in T as [T|T]; apply Ascii.eqb_eq in T; auto.
    + assert (x = 0 /\ b = (if neg then -1 else 1) * digits_from 0 ds)%Z as [-> ->] by (split; congruence).
      constructor; auto; [|lia]. cbn [orb] in C. apply orb_true_iff in C as [C|C]; apply Ascii.eqb_eq in C; auto.
Qed.

Lemma exponent_rest : forall ex x b, exponent_text ex x b -> no_digit_first ex /\ forall q, ex <> String "." q.
Proof.
  intros ex x b H. destruct H as [|c sg i ds [-> | ->]|c sg i ds [-> | ->]]; (split; [|intros q E; discriminate E]);
    reflexivity.
Qed.

Lemma infinity_spec : forall s neg, infinity s = Some neg <-> infinite_text s neg.
Proof.
  intros s neg. unfold infinity, infinite_text.
  destruct (String.eqb s "Inf" || String.eqb s "inf" || String.eqb s "+Inf" || String.eqb s "+inf") eqn:A.
  - assert (P : s = "Inf" \/ s = "inf" \/ s = "+Inf" \/ s = "+inf").
    { rewrite !orb_true_iff, !String.eqb_eq in A. tauto. }
    destruct neg; split; intros H; try discriminate; try assumption; try reflexivity.
    destruct P as [->|[->|[->| ->]]]; destruct H as [H|H]; discriminate H.
  - destruct (String.eqb s "-Inf" || String.eqb s "-inf") eqn:B.
    + assert (P : s = "-Inf" \/ s = "-inf") by (rewrite !orb_true_iff, !String.eqb_eq in B; tauto).
      destruct neg; split; intros H; try discriminate; try assumption; try reflexivity.
      destruct P as [->| ->]; destruct H as [H|[H|[H|H]]]; discriminate H.
    + split; [discriminate|]. intros H. exfalso.
      destruct neg; [destruct H as [->| ->]; discriminate B|destruct H as [->|[->|[->| ->]]]; discriminate A].
Qed.

(* The steps on a numeral. *)
Lemma numeral_steps : forall s m t b, numeral s m t b -> exists neg r n k r2 x,
  take_sign s = (neg, r) /\ take_mantissa r = Some (n, k, r2) /\ take_exponent r2 = Some (x, b, "")
  /\ m = (if neg then - n else n)%Z /\ t = (x - k)%Z /\ (0 <= n)%Z /\ infinity s = None.
Proof.
  intros s m t b (sg & i & man & n & k & ex & x & -> & Hs & Hm & He & -> & ->).
  destruct (exponent_rest ex x b He) as [H1 H2].
  pose proof (take_sign_app sg i (man +++ ex) Hs (mantissa_no_sign man n k ex Hm)) as E1.
  pose proof (take_mantissa_app man n k ex Hm H1 H2) as E2.
  exists (i <? 0)%Z, (man +++ ex), n, k, ex, x. split; [exact E1|]. split; [exact E2|].
  split; [apply take_exponent_app, He|]. split; [symmetry; apply (sign_value sg), Hs|]. split; [reflexivity|]. split.
  - destruct Hm as (a & c & Ha & Hc & _ & _ & -> & _).
    assert (G : forall u z, all_digits u -> (0 <= z)%Z -> (0 <= digits_from z u)%Z).
    { unfold all_digits. induction u as [|d u IH]; intros z Hu Hz; [exact Hz|]. cbn [all_chars digits_from] in *.
      apply andb_true_iff in Hu as [Hd Hu]. apply IH; [exact Hu|].
      unfold digit_char, HclModel.char_in in Hd. apply andb_true_iff in Hd as [Hd _]. apply Nat.leb_le in Hd. lia. }
    rewrite digits_app. apply G; [exact Hc|]. apply G; [exact Ha|lia].
  - destruct (infinity (sg +++ man +++ ex)) as [neg|] eqn:I; [|reflexivity]. exfalso.
    apply infinity_spec in I. revert I E1 E2. generalize (man +++ ex). intros r I E1 E2.
    destruct neg; cbn in I.
    + destruct I as [I|I]; rewrite I in E1; cbn in E1; injection E1 as E0 <-; vm_compute in E2; discriminate E2.
    + destruct I as [I|[I|[I|I]]]; rewrite I in E1; cbn in E1; injection E1 as E0 <-; vm_compute in E2; discriminate E2.
Qed.

Lemma close_spec : forall n t b, (0 < n)%Z -> close n t b = true <->
  ((-248 <= t <= 248) /\ exists e, 2 ^ (e - 1) <= n < 2 ^ e /\ 0 < e /\ - 2 ^ 30 <= e + t + b <= 2 ^ 30)%Z.
Proof.
  intros n t b Hn. unfold close. rewrite andb_true_iff, !Z.leb_le. set (B := (2 ^ 30)%Z). split.
  - intros [H1 H2]. split; [lia|]. exists (Z.log2 n + 1)%Z. pose proof (Z.log2_spec n Hn) as L.
    replace (Z.log2 n + 1 - 1)%Z with (Z.log2 n) by lia. replace (Z.succ (Z.log2 n)) with (Z.log2 n + 1)%Z in L by lia.
    pose proof (Z.log2_nonneg n). repeat split; lia.
  - intros [H1 (e & He & H0 & H2)]. split; [lia|].
    assert (Z.log2 n = (e - 1)%Z) as -> by (apply Z.log2_unique; [lia|]; replace (Z.succ (e - 1)) with e by lia; exact He).
    lia.
Qed.

Lemma under_pos : forall t b, (0 < under_line t b)%Z.
Proof. intros t b. unfold under_line. apply Z.mul_pos_pos; apply Z.pow_pos_nonneg; lia. Qed.
Lemma over_pos : forall n t b, (0 < n)%Z -> (0 < over_line n t b)%Z.
Proof. intros n t b H. unfold over_line. repeat apply Z.mul_pos_pos; try apply Z.pow_pos_nonneg; lia. Qed.
Lemma over_opp : forall n t b, over_line (- n) t b = (- over_line n t b)%Z.
Proof. intros. unfold over_line. lia. Qed.

Lemma scaled_nearest : forall n t b, (0 < n)%Z -> nearest_number (scaled n t b) n t b.
Proof.
  intros n t b H y Hy. unfold scaled. fold (over_line n t b) (under_line t b).
  apply ratio_nearest; [lia|apply over_pos; exact H|apply under_pos|exact Hy].
Qed.
Lemma nearest_opp : forall d m t b, nearest_number d m t b -> nearest_number (mkD (- num d) (den d)) (- m) t b.
Proof.
  intros d m t b N y (c & q & Hc & Ey). cbn [num den]. rewrite over_opp.
  assert (Hy' : bits 512 (mkD (- num y) (den y))).
  { exists (- c)%Z, q. split; [lia|]. cbn [num den]. rewrite !Z.mul_opp_l. f_equal. exact Ey. }
  pose proof (N _ Hy') as K. cbn [num den] in K.
  replace (- num d * under_line t b - - over_line m t b * pow2 (den d))%Z
    with (- (num d * under_line t b - over_line m t b * pow2 (den d)))%Z by ring.
  replace (num y * under_line t b - - over_line m t b * pow2 (den y))%Z
    with (- (- num y * under_line t b - over_line m t b * pow2 (den y)))%Z by ring.
  rewrite !Z.abs_opp. exact K.
Qed.
Lemma nearest_zero : forall t b, nearest_number (mkD 0 0) 0 t b.
Proof. intros t b y _. cbn [num den]. unfold over_line. rewrite !Z.mul_0_l. change (Z.abs (0 - 0)) with 0%Z. pose proof (pow2_pos 0). nia. Qed.
Lemma nearest_exact : forall d m t b y, nearest_number d m t b -> bits 512 y ->
  (num y * under_line t b = over_line m t b * pow2 (den y))%Z -> same_num y d.
Proof.
  intros d m t b y N Hy E. pose proof (N y Hy) as K. rewrite E, Z.sub_diag in K. cbn [Z.abs] in K.
  rewrite Z.mul_0_l in K. pose proof (pow2_pos (den y)) as Py. pose proof (pow2_pos (den d)) as Pd.
  pose proof (under_pos t b) as T.
  assert (Q : (num d * under_line t b = over_line m t b * pow2 (den d))%Z) by nia.
  unfold same_num. apply (Z.mul_reg_r _ _ (under_line t b)); [lia|].
  replace (num y * pow2 (den d) * under_line t b)%Z with (num y * under_line t b * pow2 (den d))%Z by ring.
  replace (num d * pow2 (den y) * under_line t b)%Z with (num d * under_line t b * pow2 (den y))%Z by ring.
  rewrite E, Q. ring.
Qed.

Section P.
Variable far : bool -> Z -> Z -> Z -> option number.

Lemma parse_numeral : forall s m t b, numeral s m t b -> not_far m t b ->
  exists d, parse_float far s = Some (Fin 512 d) /\ nearest_number d m t b.
Proof.
  intros s m t b H F. destruct (numeral_steps s m t b H) as (neg & r & n & k & r2 & x & E1 & E2 & E3 & -> & -> & Hn & E4).
  unfold parse_float. rewrite E4, E1, E2, E3. destruct (Z.eqb_spec n 0) as [->|N0].
  - exists (mkD 0 0). split; [reflexivity|]. destruct neg; apply nearest_zero.
  - assert (Hp : (0 < n)%Z) by lia.
    assert (C : close n (x - k) b = true).
    { apply close_spec; [exact Hp|]. destruct F as [F|F]; [destruct neg; lia|].
      replace (Z.abs (if neg then - n else n)) with n in F by (destruct neg; lia). exact F. }
    rewrite C. cbv zeta. eexists. split; [reflexivity|]. pose proof (scaled_nearest n (x - k) b Hp) as K.
    destruct neg; [apply nearest_opp; exact K|]. destruct (scaled n (x - k) b). exact K.
Qed.

Lemma parse_sound : forall s v, parse_float far s = Some v ->
  (exists neg, infinite_text s neg /\ v = Inf neg) \/ (exists m t b, numeral s m t b).
Proof.
  intros s v H. unfold parse_float in H. destruct (infinity s) as [neg|] eqn:I.
  - left. exists neg. split; [apply infinity_spec, I|congruence].
  - right. destruct (take_sign s) as [neg r] eqn:E1. destruct (take_mantissa r) as [[[n k] r2]|] eqn:E2; [|discriminate].
    destruct (take_exponent r2) as [[[x b] r3]|] eqn:E3; [|discriminate].
    assert (r3 = "") as -> by (destruct r3; [reflexivity|discriminate]).
    apply take_sign_inv in E1 as (sg & -> & Hs). apply take_mantissa_inv in E2 as (man & -> & Hm).
    apply take_exponent_inv in E3. exists ((if neg then -1 else 1) * n)%Z, (x - k)%Z, b.
    exists sg, (if neg then -1 else 1)%Z, man, n, k, r2, x. repeat split; auto.
Qed.

Lemma parse_infinite : forall s neg, infinite_text s neg -> parse_float far s = Some (Inf neg).
Proof. intros s neg H. apply infinity_spec in H. unfold parse_float. rewrite H. reflexivity. Qed.
End P.

Lemma numeral_unique : forall s m t b m' t' b', numeral s m t b -> numeral s m' t' b' -> m = m' /\ t = t' /\ b = b'.
Proof.
  intros s m t b m' t' b' H H'.
  destruct (numeral_steps s m t b H) as (neg & r & n & k & r2 & x & E1 & E2 & E3 & -> & -> & _).
  destruct (numeral_steps s m' t' b' H') as (neg' & r' & n' & k' & r2' & x' & F1 & F2 & F3 & -> & -> & _).
  rewrite F1 in E1. assert (neg' = neg /\ r' = r) as [-> ->] by (split; congruence).
  rewrite F2 in E2. assert (n' = n /\ k' = k /\ r2' = r2) as (-> & -> & ->) by (repeat split; congruence).
  rewrite F3 in E3. assert (x' = x /\ b' = b) as [-> ->] by (split; congruence). auto.
Qed.

(* Whole numbers as texts *)
Lemma dec_nat_digits : forall f n, (f <> 0)%nat -> all_digits (dec_nat f n) /\ dec_nat f n <> "".
Proof.
  unfold all_digits. induction f as [|f IH]; intros n Hf; [elim Hf; reflexivity|]. cbn [dec_nat].
  assert (D : forall k, (k < 10)%N -> all_chars digit_char (digit_text k) = true /\ digit_text k <> "").
  { intros k Hk. assert (k = 0 \/ k = 1 \/ k = 2 \/ k = 3 \/ k = 4 \/ k = 5 \/ k = 6 \/ k = 7 \/ k = 8 \/ k = 9)%N by lia.
    repeat (destruct H as [->|H]; [split; [reflexivity|discriminate]|]). subst. split; [reflexivity|discriminate]. }
  destruct (N.ltb_spec n 10) as [H|H]; [apply D, H|].
  destruct (D (n mod 10)%N (N.mod_lt n 10 ltac:(discriminate))) as [D1 D2].
  split.
  - rewrite all_chars_app, D1, andb_true_r. destruct f as [|f]; [reflexivity|]. apply IH. discriminate.
  - intros E. apply D2. destruct (dec_nat f (n / 10)); [exact E|discriminate E].
Qed.
Lemma dec_N_digits : forall n, all_digits (dec_N n) /\ dec_N n <> "".
Proof. intros n. apply dec_nat_digits. discriminate. Qed.
Lemma digit_text_value : forall k z, (k < 10)%N -> digits_from z (digit_text k) = (z * 10 + Z.of_N k)%Z.
Proof.
  intros k z Hk. assert (k = 0 \/ k = 1 \/ k = 2 \/ k = 3 \/ k = 4 \/ k = 5 \/ k = 6 \/ k = 7 \/ k = 8 \/ k = 9)%N by lia.
  repeat (destruct H as [->|H]; [reflexivity|]). subst. reflexivity.
Qed.
Lemma dec_nat_value : forall f n, (N.to_nat n < 2 ^ f)%nat -> digits_from 0 (dec_nat f n) = Z.of_N n.
Proof.
  induction f as [|f IH]; intros n Hn; [cbn in Hn; cbn; lia|]. cbn [dec_nat].
  destruct (N.ltb_spec n 10) as [H|H]; [rewrite digit_text_value by exact H; lia|].
  pose proof (N.mod_lt n 10 ltac:(discriminate)) as Hm. pose proof (N.div_mod n 10 ltac:(discriminate)) as E.
  rewrite digits_app, IH, (digit_text_value _ _ Hm).
  - lia.
  - cbn [Nat.pow] in Hn. lia.
Qed.
Lemma dec_N_value : forall n, digits_from 0 (dec_N n) = Z.of_N n.
Proof. intros n. apply dec_nat_value, size_bound. Qed.

Lemma dec_Z_numeral : forall z, numeral (dec_Z z) z 0 0.
Proof.
  intros z. destruct (dec_N_digits (Z.abs_N z)) as [D N0].
  assert (M : mantissa_text (dec_N (Z.abs_N z)) (Z.abs z) 0).
  { exists (dec_N (Z.abs_N z)), "". rewrite append_nil_r. repeat split; auto. rewrite dec_N_value. lia. }
  unfold dec_Z. destruct (Z.ltb_spec z 0) as [H|H].
  - exists "-", (-1)%Z, (dec_N (Z.abs_N z)), (Z.abs z), 0%Z, "", 0%Z. rewrite append_nil_r.
    split; [reflexivity|]. split; [constructor|]. split; [exact M|]. split; [constructor|]. lia.
  - exists "", 1%Z, (dec_N (Z.abs_N z)), (Z.abs z), 0%Z, "", 0%Z. rewrite append_nil_r.
    split; [reflexivity|]. split; [constructor|]. split; [exact M|]. split; [constructor|]. lia.
Qed.

(* A whole number of at most 512 bits *)
Lemma whole_not_far : forall z, (Z.abs z < 2 ^ 512)%Z -> not_far z 0 0.
Proof.
  intros z H. destruct (Z.eq_dec z 0) as [->|N0]; [left; reflexivity|right]. split; [lia|].
  exists (Z.log2 (Z.abs z) + 1)%Z. pose proof (Z.log2_spec (Z.abs z) ltac:(lia)) as L.
  replace (Z.log2 (Z.abs z) + 1 - 1)%Z with (Z.log2 (Z.abs z)) by lia.
  replace (Z.succ (Z.log2 (Z.abs z))) with (Z.log2 (Z.abs z) + 1)%Z in L by lia.
  assert (Z.log2 (Z.abs z) < 512)%Z by (apply Z.log2_lt_pow2; lia).
  pose proof (Z.log2_nonneg (Z.abs z)). change (2 ^ 30)%Z with 1073741824%Z. repeat split; lia.
Qed.

Lemma whole_text : forall far_text p d z, is_whole d z -> (Z.abs z < 2 ^ p)%Z -> number_text far_text (Fin p d) = dec_Z z.
Proof.
  intros far_text p d z W H. unfold is_whole in W. unfold number_text. fold (pow2 (den d)) in W.
  pose proof (pow2_pos (den d)) as P. rewrite W, Z.quot_mul by lia. rewrite Z.eqb_refl.
  replace (Z.abs z <? 2 ^ p)%Z with true by lia. reflexivity.
Qed.

Lemma says_whole_number : forall d m t b z, nearest_number d m t b -> says_whole m t b z -> (Z.abs z < 2 ^ 512)%Z -> is_whole d z.
Proof.
  intros d m t b z N W H. pose proof (nearest_exact d m t b (mkD z 0) N (bits_int z H)) as S1.
  unfold says_whole in W. cbn [num den] in S1. change (pow2 0) with 1%Z in S1.
  specialize (S1 ltac:(rewrite W; lia)). unfold same_num in S1. cbn [num den] in S1. change (pow2 0) with 1%Z in S1.
  unfold is_whole. fold (pow2 (den d)). lia.
Qed.

(* Calls *)
Lemma union_nil : forall ms, union [] ms = ms.
Proof. intros ms. unfold union. cbn [app]. induction ms as [|m ms IH]; [reflexivity|]. cbn. f_equal. exact IH. Qed.

Lemma call_primitive : forall far far_text quoted friendly early want v, is_known v = true ->
  call early (to_primitive far far_text quoted friendly want) [v] =
  if ty_eqb (type_of v) want || castable (type_of v) want then
    match cast far far_text v want with
    | Ok r => Ok r
    | _ => f_impl (to_primitive far far_text quoted friendly want) [v] want
    end
  else Err ("cannot convert " +++ friendly (type_of v) +++ " to " +++ friendly want).
Proof.
  intros far far_text quoted friendly early want v K. unfold call, to_primitive, to_func.
  cbn [f_params f_var pair_args check_args p_null p_dyn p_type negb]. rewrite !andb_false_r, conforms_dyn. cbn [negb].
  assert (R : forall r, with_marks [] r = r) by (intros [m s l]; unfold with_marks, union; cbn; rewrite app_nil_r; reflexivity).
  destruct (kind_eqb (kind_of (type_of v)) KDyn); cbn [bindr map f_type f_impl existsb];
    unfold seen, unknown_arg; cbn [fst snd p_marked]; rewrite K; cbn [negb andb orb];
    (destruct (ty_eqb (type_of v) want || castable (type_of v) want); cbn [no_panic bindr]; [|reflexivity]);
    cbn [flat_map app]; unfold taken_marks; cbn [fst snd p_marked app];
    (destruct (cast far far_text v want) as [r|e|e] eqn:C; cbn [no_panic bindr];
     [rewrite R; reflexivity| |exfalso; unfold cast in C; destruct (ty_eqb (type_of v) want); [discriminate|];
      destruct (negb (castable (type_of v) want)); [discriminate|];
      destruct (shape_of v) eqn:Sh; cbn in C; try discriminate; unfold cast_shape in C;
      destruct (kind_of want); cbn in C; try discriminate; repeat (destruct (_ || _) in C; try discriminate);
      try (destruct (parse_float far s); discriminate)]);
    (destruct (contains_mark sensitive_mark v); [reflexivity|]);
    repeat match goal with |- context [if ?c then _ else _] => destruct c end; reflexivity.
Qed.
