(* Proofs about rounding and about CtyNumberToNative. *)

From Verif Require Import Base CtyModel CtySpec.
From Coq Require Import ZifyBool ZifyNat ZifyN Lia.
Open Scope Z_scope.

Lemma pow2_pos : forall k, 0 < pow2 k.
Proof. intros k. unfold pow2. apply Z.pow_pos_nonneg; lia. Qed.

Lemma pw_pos : forall z, 0 <= z -> 0 < 2 ^ z.
Proof. intros. apply Z.pow_pos_nonneg; lia. Qed.

Definition place (f : format) (d : dyadic) : Z :=
  Z.max (Z.log2 (Z.abs (num d)) + 1 - prec f) (last_place f + Z.of_nat (den d)).

Lemma round_to_unfold : forall f d,
  round_to f d =
  (let r := round_mantissa (Z.abs (num d)) (place f d) in
   if (2 ^ (bound f + Z.of_nat (den d)) <=? r)%Z then None
   else Some (mkD (Z.sgn (num d) * r) (den d))).
Proof. reflexivity. Qed.

Lemma round_mult : forall q s, round_mantissa (q * 2 ^ s) s = q * 2 ^ s.
Proof.
  intros q s. unfold round_mantissa. destruct (s <=? 0) eqn:E; [reflexivity|].
  assert (0 < 2 ^ s) by (apply pw_pos; lia).
  rewrite Z.mod_mul, Z.div_mul by lia. simpl (2 * 0).
  replace (2 ^ s <? 0) with false by lia.
  replace (0 =? 2 ^ s) with false by lia. reflexivity.
Qed.

(* A representable number is a multiple of the last place it would be rounded to. *)
Lemma representable_mult : forall f d, 0 < prec f -> representable f d ->
  0 < place f d -> exists q, Z.abs (num d) = q * 2 ^ place f d.
Proof.
  intros f d Hp (n & q & Hn & Hq & He & Hb) Hs.
  set (a := Z.abs (num d)) in *. set (k := Z.of_nat (den d)) in *.
  destruct (Z.eq_dec a 0) as [->|Ha]; [exists 0; lia|].
  assert (Ha0 : 0 < a) by lia.
  assert (Hk : 0 <= k) by lia.
  assert (E : a * 2 ^ Z.max 0 (- q) = Z.abs n * 2 ^ Z.max 0 q * 2 ^ k).
  { unfold a. assert (P1 := pw_pos (Z.max 0 (- q)) ltac:(lia)).
    assert (P2 := pw_pos (Z.max 0 q) ltac:(lia)). assert (P3 := pw_pos k Hk).
    rewrite <- (Z.abs_eq (2 ^ Z.max 0 (- q))) by lia.
    rewrite <- (Z.abs_eq (2 ^ Z.max 0 q)) by lia.
    rewrite <- (Z.abs_eq (2 ^ k)) by lia.
    rewrite <- !Z.abs_mul. congruence. }
  set (b := Z.abs n) in *.
  assert (Hb0 : 0 < b).
  { assert (0 < a * 2 ^ Z.max 0 (- q)) by (apply Z.mul_pos_pos; [lia|apply pw_pos; lia]).
    destruct (Z.eq_dec b 0) as [Z0|]; [rewrite Z0 in E; lia|unfold b in *; lia]. }
  assert (Lb : Z.log2 b < prec f).
  { apply Z.log2_lt_pow2; lia. }
  destruct (Z_le_dec 0 (q + k)) as [Hqk|Hqk].
  - assert (Ea : a = b * 2 ^ (q + k)).
    { destruct (Z_le_dec 0 q) as [H0|H0].
      - rewrite Z.max_l, Z.max_r in E by lia. rewrite Z.pow_add_r by lia. simpl in E. lia.
      - rewrite (Z.max_r 0 (- q)), (Z.max_l 0 q) in E by lia. rewrite Z.pow_0_r, Z.mul_1_r in E.
        replace k with ((q + k) + (- q)) in E by lia. rewrite Z.pow_add_r in E by lia.
        rewrite Z.mul_assoc in E. apply Z.mul_reg_r in E; [exact E|].
        assert (P := pw_pos (- q) ltac:(lia)). lia. }
    assert (La : Z.log2 a = q + k + Z.log2 b) by (rewrite Ea; apply Z.log2_mul_pow2; lia).
    assert (Hle : place f d <= q + k) by (unfold place; fold a k; lia).
    exists (b * 2 ^ (q + k - place f d)).
    rewrite <- Z.mul_assoc, <- Z.pow_add_r by lia.
    replace (q + k - place f d + place f d) with (q + k) by lia. exact Ea.
  - exfalso.
    assert (Eb : b = a * 2 ^ (- (q + k))).
    { rewrite (Z.max_r 0 (- q)), (Z.max_l 0 q) in E by lia. rewrite Z.pow_0_r, Z.mul_1_r in E.
      replace (- q) with (- (q + k) + k) in E by lia. rewrite Z.pow_add_r in E by lia.
      rewrite Z.mul_assoc in E. apply Z.mul_reg_r in E; [lia|].
      assert (P := pw_pos k ltac:(lia)). lia. }
    assert (Lc : Z.log2 b = - (q + k) + Z.log2 a) by (rewrite Eb; apply Z.log2_mul_pow2; lia).
    unfold place in Hs; fold a k in Hs. lia.
Qed.

Lemma sgn_abs : forall z, Z.sgn z * Z.abs z = z.
Proof. intros z. rewrite Z.mul_comm. apply Z.abs_sgn. Qed.

Lemma dyadic_eta : forall d, mkD (num d) (den d) = d.
Proof. intros []; reflexivity. Qed.

Definition good_format (f : format) := 0 < prec f /\ 0 <= bound f.

Theorem round_to_exact : forall f d, good_format f -> representable f d -> round_to f d = Some d.
Proof.
  intros f d [Hp Hf] R. rewrite round_to_unfold. cbv zeta.
  assert (E : round_mantissa (Z.abs (num d)) (place f d) = Z.abs (num d)).
  { destruct (Z_lt_dec 0 (place f d)) as [Hs|Hs].
    - destruct (representable_mult f d Hp R Hs) as (q & Eq). rewrite Eq. apply round_mult.
    - unfold round_mantissa. replace (place f d <=? 0) with true by lia. reflexivity. }
  rewrite E. destruct R as (n & q & _ & _ & _ & Hb).
  rewrite Z.pow_add_r by lia.
  replace (2 ^ bound f * 2 ^ Z.of_nat (den d) <=? Z.abs (num d)) with false by lia.
  rewrite sgn_abs, dyadic_eta. reflexivity.
Qed.

(* The rounded mantissa: a multiple of the last place, at most half a place away. *)
Lemma round_close : forall a s, 0 < s ->
  exists q, round_mantissa a s = q * 2 ^ s
    /\ 2 * Z.abs (q * 2 ^ s - a) <= 2 ^ s
    /\ (q = a / 2 ^ s \/ q = a / 2 ^ s + 1).
Proof.
  intros a s Hs. unfold round_mantissa. replace (s <=? 0) with false by lia. cbv zeta.
  assert (P := pw_pos s ltac:(lia)).
  pose proof (Z.div_mod a (2 ^ s) ltac:(lia)) as D.
  pose proof (Z.mod_pos_bound a (2 ^ s) P) as B.
  set (q := a / 2 ^ s) in *. set (r := a mod 2 ^ s) in *. set (M := 2 ^ s) in *.
  destruct ((M <? 2 * r) || ((2 * r =? M) && Z.odd q)) eqn:U; eexists; split; try reflexivity;
    (split; [|auto]); clearbody q r M.
  - replace ((q + 1) * M) with (M * q + M) by ring.
    apply orb_true_iff in U. rewrite andb_true_iff in U. lia.
  - replace (q * M) with (M * q) by ring. apply orb_false_iff in U. destruct U. lia.
Qed.

Lemma log2_bounds : forall a, 0 < a -> 2 ^ Z.log2 a <= a < 2 ^ (Z.log2 a + 1).
Proof. intros a H. apply Z.log2_spec in H. rewrite Z.add_1_r. exact H. Qed.

Theorem round_to_representable : forall f d r, good_format f -> round_to f d = Some r ->
  representable f r.
Proof.
  intros f d r [Hp Hf] H. rewrite round_to_unfold in H. cbv zeta in H.
  destruct (2 ^ (bound f + Z.of_nat (den d)) <=? _) eqn:B; [discriminate|].
  injection H as <-. rewrite Z.pow_add_r in B by lia.
  set (k := Z.of_nat (den d)) in *. set (a := Z.abs (num d)) in *.
  assert (Hk : 0 <= k) by lia. assert (Pk := pw_pos k Hk).
  destruct (Z.eq_dec a 0) as [Z0|Ha].
  { exists 0, (Z.max 0 (last_place f)). simpl num. simpl den.
    assert (num d = 0) as -> by lia. simpl Z.sgn. rewrite !Z.mul_0_l. simpl Z.abs.
    assert (P := pw_pos (prec f) ltac:(lia)). assert (P2 := pw_pos (bound f) ltac:(lia)).
    repeat split; lia. }
  assert (Ha0 : 0 < a) by lia.
  assert (Sg : Z.abs (Z.sgn (num d)) = 1) by lia.
  destruct (Z_lt_dec 0 (place f d)) as [Hs|Hs].
  - destruct (round_close a (place f d) Hs) as (q & Eq & Hc & Hq).
    set (s := place f d) in *. assert (Ps := pw_pos s ltac:(lia)).
    assert (Hq2 : 0 <= a / 2 ^ s < 2 ^ prec f).
    { split; [apply Z.div_pos; lia|]. apply Z.div_lt_upper_bound; [lia|].
      rewrite <- Z.pow_add_r by lia.
      destruct (log2_bounds a Ha0) as [_ L]. eapply Z.lt_le_trans; [exact L|].
      apply Z.pow_le_mono_r; [lia|]. unfold s, place; fold a k. lia. }
    rewrite Eq in *. clear Eq.
    assert (Hl : last_place f <= s - k) by (unfold s, place; fold a k; lia).
    assert (Q0 : 0 <= q <= 2 ^ prec f) by (destruct Hq; lia).
    assert (Eqn : forall e, 0 <= e - k \/ e - k < 0 -> 0 <= e -> forall m,
               Z.sgn (num d) * (m * 2 ^ e) * 2 ^ Z.max 0 (- (e - k))
               = Z.sgn (num d) * m * 2 ^ Z.max 0 (e - k) * 2 ^ k).
    { intros e [C|C] He m.
      - rewrite Z.max_l, Z.max_r by lia. rewrite Z.pow_0_r.
        replace e with (e - k + k) at 1 by lia. rewrite Z.pow_add_r by lia. ring.
      - rewrite Z.max_r, Z.max_l by lia. rewrite Z.pow_0_r.
        replace k with (e + - (e - k)) at 2 by lia. rewrite Z.pow_add_r by lia. ring. }
    assert (Bd : Z.abs (Z.sgn (num d) * (q * 2 ^ s)) < 2 ^ bound f * 2 ^ k).
    { rewrite Z.abs_mul, Sg, Z.mul_1_l, Z.abs_eq; [lia|]. apply Z.mul_nonneg_nonneg; lia. }
    destruct (Z.eq_dec q (2 ^ prec f)) as [Top|Ntop].
    + exists (Z.sgn (num d) * 2 ^ (prec f - 1)), (s + 1 - k). simpl num. simpl den. fold k.
      assert (P1 := pw_pos (prec f - 1) ltac:(lia)).
      assert (E1 : 2 ^ prec f = 2 * 2 ^ (prec f - 1)).
      { rewrite <- Z.pow_succ_r by lia. f_equal; lia. }
      repeat split.
      * rewrite Z.abs_mul, Sg, Z.mul_1_l, Z.abs_eq by lia. lia.
      * lia.
      * rewrite <- Eqn by lia. f_equal. f_equal. rewrite Top, E1, Z.pow_add_r by lia. ring.
      * exact Bd.
    + exists (Z.sgn (num d) * q), (s - k). simpl num. simpl den. fold k.
      repeat split.
      * rewrite Z.abs_mul, Sg. lia.
      * lia.
      * apply Eqn; lia.
      * exact Bd.
  - assert (M0 : round_mantissa a (place f d) = a).
    { unfold round_mantissa. replace (place f d <=? 0) with true by lia. reflexivity. }
    rewrite M0 in *. exists (num d), (- k).
    replace (Z.sgn (num d) * a) with (num d) by (symmetry; apply sgn_abs).
    simpl num. simpl den. fold k.
    unfold place in Hs; fold a k in Hs.
    repeat split; fold a.
    + destruct (log2_bounds a Ha0) as [_ L]. eapply Z.lt_le_trans; [exact L|].
      apply Z.pow_le_mono_r; lia.
    + lia.
    + rewrite Z.max_r, Z.max_l by lia. rewrite Z.opp_involutive. ring.
    + lia.
Qed.

(* Closeness of a rounded number, whatever the last place. *)
Lemma round_nearest_mult : forall a s y, 0 < s ->
  Z.abs (round_mantissa a s - a) <= Z.abs (y * 2 ^ s - a).
Proof.
  intros a s y Hs. destruct (round_close a s Hs) as (q & -> & Hc & _).
  assert (P := pw_pos s ltac:(lia)). set (M := 2 ^ s) in *. clearbody M.
  destruct (Z.eq_dec q y) as [->|Hn]; [lia|].
  destruct (Z_lt_dec q y).
  - assert ((q + 1) * M <= y * M) by (apply Z.mul_le_mono_nonneg_r; lia). lia.
  - assert ((y + 1) * M <= q * M) by (apply Z.mul_le_mono_nonneg_r; lia). lia.
Qed.

Lemma abs_scale : forall x m, 0 <= m -> Z.abs (x * m) = Z.abs x * m.
Proof. intros x m H. rewrite Z.abs_mul, (Z.abs_eq m) by lia. reflexivity. Qed.

(* Either a number of the format is a multiple of the last place of d, or it is below the
   leading power of d. *)
Lemma representable_split : forall f d y, 0 < prec f -> representable f y -> num d <> 0 ->
  let s := place f d in 0 < s ->
  let Y := (num y * 2 ^ Z.of_nat (den d))%Z in
  let ky := Z.of_nat (den y) in
  (exists c, Y = c * 2 ^ s * 2 ^ ky)
  \/ (s <= Z.log2 (Z.abs (num d)) /\ Z.abs Y <= 2 ^ Z.log2 (Z.abs (num d)) * 2 ^ ky).
Proof.
  intros f d y Hp (n & q & Hn & Hq & He & _) Hd s Hs Y ky.
  set (k := Z.of_nat (den d)) in *. assert (Hk : 0 <= k) by lia. assert (Hky : 0 <= ky) by lia.
  fold ky in He.
  assert (EY : Y * 2 ^ Z.max 0 (- q) = n * 2 ^ (Z.max 0 q + ky + k)).
  { unfold Y. rewrite !Z.pow_add_r by lia.
    transitivity (num y * 2 ^ Z.max 0 (- q) * 2 ^ k); [ring|]. rewrite He. ring. }
  assert (Pq := pw_pos (Z.max 0 (- q)) ltac:(lia)).
  destruct (Z_le_dec s (q + k)) as [H|H].
  - left. exists (n * 2 ^ (q + k - s)).
    apply (Z.mul_reg_r _ _ (2 ^ Z.max 0 (- q))); [lia|].
    rewrite EY, <- !Z.mul_assoc. f_equal. rewrite <- !Z.pow_add_r by lia. f_equal. lia.
  - right. set (l := Z.log2 (Z.abs (num d))).
    assert (Hl : 0 <= l) by apply Z.log2_nonneg.
    assert (Es : s = l + 1 - prec f) by (unfold s, place in H |- *; fold l k in H |- *; lia).
    split; [lia|].
    apply (Z.mul_le_mono_pos_r _ _ (2 ^ Z.max 0 (- q))); [lia|].
    rewrite <- abs_scale by lia. rewrite EY, abs_scale by (assert (P := pw_pos (Z.max 0 q + ky + k) ltac:(lia)); lia).
    apply Z.le_trans with (2 ^ prec f * 2 ^ (Z.max 0 q + ky + k)).
    + apply Z.mul_le_mono_nonneg_r; [assert (P := pw_pos (Z.max 0 q + ky + k) ltac:(lia)); lia|lia].
    + rewrite <- !Z.pow_add_r by lia. apply Z.pow_le_mono_r; lia.
Qed.

Theorem round_to_nearest : forall f d r, good_format f -> round_to f d = Some r -> nearest f r d.
Proof.
  intros f d r [Hp Hf] H y Ry. rewrite round_to_unfold in H. cbv zeta in H.
  destruct (_ <=? _); [discriminate|]. injection H as <-. simpl num. simpl den.
  set (R := round_mantissa (Z.abs (num d)) (place f d)).
  assert (Pk := pow2_pos (den d)). assert (Py := pow2_pos (den y)).
  rewrite <- Z.mul_sub_distr_r, abs_scale by lia.
  rewrite <- Z.mul_assoc, (Z.mul_comm (pow2 (den d)) (pow2 (den y))), Z.mul_assoc.
  apply Z.mul_le_mono_nonneg_r; [lia|].
  destruct (Z.eq_dec (num d) 0) as [Z0|Hd].
  { rewrite Z0. simpl Z.sgn. rewrite Z.mul_0_l. simpl (Z.abs (0 - 0)). lia. }
  set (a := Z.abs (num d)) in *.
  assert (Ha : 0 < a) by lia.
  assert (Esg : num d = Z.sgn (num d) * a) by (symmetry; apply sgn_abs).
  assert (Ssg : Z.sgn (num d) = 1 \/ Z.sgn (num d) = - 1) by lia.
  assert (E1 : Z.abs (Z.sgn (num d) * R - num d) = Z.abs (R - a)).
  { rewrite Esg at 2. destruct Ssg as [-> | ->]; lia. }
  rewrite E1.
  set (Y := Z.sgn (num d) * num y).
  assert (E2 : Z.abs (num y * pow2 (den d) - num d * pow2 (den y))
               = Z.abs (Y * pow2 (den d) - a * pow2 (den y))).
  { unfold Y, a. destruct Ssg as [S|S]; rewrite S.
    - rewrite (Z.abs_eq (num d)) by lia. f_equal. ring.
    - rewrite (Z.abs_neq (num d)) by lia. rewrite <- Z.abs_opp. f_equal. ring. }
  rewrite E2. clear E1 E2.
  destruct (Z_lt_dec 0 (place f d)) as [Hs|Hs].
  2:{ unfold R, round_mantissa. replace (place f d <=? 0) with true by lia. lia. }
  destruct (representable_split f d y Hp Ry Hd Hs) as [(c & Ec)|(Hl & Hb)].
  - assert (EY : Y * pow2 (den d) = Z.sgn (num d) * c * 2 ^ place f d * pow2 (den y)).
    { unfold Y, pow2. rewrite <- !Z.mul_assoc. f_equal. rewrite Z.mul_assoc. exact Ec. }
    rewrite EY, <- Z.mul_sub_distr_r, abs_scale by lia.
    apply Z.mul_le_mono_nonneg_r; [lia|]. apply round_nearest_mult. exact Hs.
  - fold a in Hl, Hb. set (l := Z.log2 a) in *.
    destruct (log2_bounds a Ha) as [La _]. fold l in La.
    assert (B : Z.abs (R - a) <= a - 2 ^ l).
    { assert (N := round_nearest_mult a (place f d) (2 ^ (l - place f d)) Hs). fold R in N.
      rewrite <- Z.pow_add_r in N by lia.
      replace (l - place f d + place f d) with l in N by lia. lia. }
    assert (Z.abs (Y * pow2 (den d)) <= 2 ^ l * pow2 (den y)).
    { unfold Y, pow2 at 1. rewrite <- Z.mul_assoc, Z.abs_mul.
      replace (Z.abs (Z.sgn (num d))) with 1 by (destruct Ssg as [-> | ->]; reflexivity).
      rewrite Z.mul_1_l. exact Hb. }
    assert (2 ^ l * pow2 (den y) <= a * pow2 (den y)) by (apply Z.mul_le_mono_nonneg_r; lia).
    apply Z.le_trans with ((a - 2 ^ l) * pow2 (den y)); [apply Z.mul_le_mono_nonneg_r; lia|].
    rewrite Z.mul_sub_distr_r. lia.
Qed.

(* ----- the integer conversions ----- *)

Lemma whole_quot : forall d z, is_whole d z -> Z.quot (num d) (pow2 (den d)) = z.
Proof.
  intros d z H. unfold is_whole in H. rewrite H. fold (pow2 (den d)). apply Z.quot_mul.
  assert (P := pow2_pos (den d)). lia.
Qed.

Lemma big_int_whole : forall d z, is_whole d z -> big_int d = (z, Exact).
Proof.
  intros d z H. unfold big_int. rewrite (whole_quot d z H). cbv zeta. f_equal.
  unfold is_whole in H. unfold accuracy_of, pow2. rewrite <- H, Z.ltb_irrefl. reflexivity.
Qed.

Lemma big_int_frac : forall d, ~ whole d ->
  snd (big_int d) = if 0 <? num d then Below else Above.
Proof.
  intros d H. unfold big_int. cbv zeta. simpl snd.
  set (q := Z.quot (num d) (pow2 (den d))). set (r := Z.rem (num d) (pow2 (den d))).
  assert (P := pow2_pos (den d)).
  assert (D : num d = pow2 (den d) * q + r) by apply Z.quot_rem'.
  assert (Hr : r <> 0).
  { intros E. apply H. exists q. unfold is_whole. fold (pow2 (den d)). lia. }
  assert (Hn : num d <> 0).
  { intros E. apply H. exists 0. unfold is_whole. lia. }
  unfold accuracy_of.
  destruct (0 <? num d) eqn:S.
  - assert (0 <= r < pow2 (den d)) by (apply Z.rem_bound_pos; lia).
    replace (q * pow2 (den d) <? num d) with true by lia. reflexivity.
  - assert (- pow2 (den d) < r <= 0).
    { unfold r. assert (E := Z.rem_opp_l (num d) (pow2 (den d)) ltac:(lia)).
      assert (0 <= Z.rem (- num d) (pow2 (den d)) < pow2 (den d)) by (apply Z.rem_bound_pos; lia).
      lia. }
    replace (q * pow2 (den d) <? num d) with false by lia.
    replace (num d <? q * pow2 (den d)) with true by lia. reflexivity.
Qed.

Lemma from_int_whole : forall d z, is_whole d z -> in_int64 z -> from_int d = Ok z.
Proof.
  intros d z H R. unfold from_int, big_int64, min_int64, max_int64.
  assert (P := pow2_pos (den d)).
  assert (E : num d = z * pow2 (den d)) by exact H.
  unfold in_int64 in R.
  assert (-2 ^ 63 * pow2 (den d) <= z * pow2 (den d)) by (apply Z.mul_le_mono_nonneg_r; lia).
  assert (z * pow2 (den d) <= (2 ^ 63 - 1) * pow2 (den d)) by (apply Z.mul_le_mono_nonneg_r; lia).
  replace (num d <? _) with false by lia. replace (_ <? num d) with false by lia.
  rewrite (big_int_whole d z H). reflexivity.
Qed.

Theorem number_int : forall d z, is_whole d z -> in_int64 z ->
  exists v, cty_number_to_native d = Ok v /\ native_int z v.
Proof.
  intros d z H R. unfold cty_number_to_native.
  assert (F := from_int_whole d z H R).
  assert (A : exact_or_above (snd (big_int64 d)) = true).
  { unfold from_int in F. destruct (big_int64 d) as [x []]; try discriminate F; reflexivity. }
  rewrite A, F. simpl. eexists. split; [reflexivity|].
  unfold native_int, in_int32. simpl (2 ^ 31).
  destruct ((2147483647 <? z) || (z <? -2147483648)) eqn:C.
  - right. split; [reflexivity|]. apply orb_true_iff in C. lia.
  - left. split; [reflexivity|]. apply orb_false_iff in C. lia.
Qed.

Lemma from_int_err : forall d, (forall z, is_whole d z -> ~ in_int64 z) ->
  exists e, from_int d = Err e.
Proof.
  intros d H. unfold from_int.
  destruct (big_int64 d) as [x a] eqn:E. destruct a; try (eexists; reflexivity). exfalso.
  unfold big_int64 in E.
  destruct (num d <? _) eqn:L; [discriminate|]. destruct (_ <? num d) eqn:U; [discriminate|].
  assert (W : is_whole d x).
  { unfold big_int in E. cbv zeta in E. injection E as E1 E2. unfold accuracy_of in E2.
    destruct (_ <? _) eqn:A in E2; [discriminate|]. destruct (_ <? _) eqn:B in E2; [discriminate|].
    unfold is_whole. fold (pow2 (den d)). rewrite <- E1. lia. }
  apply (H x W). assert (P := pow2_pos (den d)). unfold is_whole in W. fold (pow2 (den d)) in W.
  unfold min_int64, max_int64 in *. unfold in_int64.
  assert (- 2 ^ 63 * pow2 (den d) <= x * pow2 (den d)) as L1 by lia.
  assert (x * pow2 (den d) <= (2 ^ 63 - 1) * pow2 (den d)) as L2 by lia.
  apply Z.mul_le_mono_pos_r in L1, L2; lia.
Qed.

Theorem number_err : forall d,
  (whole d /\ forall z, is_whole d z -> ~ in_int64 z) \/ (num d < 0 /\ ~ whole d) ->
  exists e, cty_number_to_native d = Err e.
Proof.
  intros d H. unfold cty_number_to_native.
  assert (N : forall z, is_whole d z -> ~ in_int64 z).
  { destruct H as [[_ H]|[_ H]]; [exact H|]. intros z W. exfalso. apply H. exists z. exact W. }
  destruct (from_int_err d N) as (e & ->).
  assert (A : exact_or_above (snd (big_int d)) = true).
  { destruct H as [[[z W] _]|[Hn Hw]].
    - rewrite (big_int_whole d z W). reflexivity.
    - rewrite (big_int_frac d Hw). replace (0 <? num d) with false by lia. reflexivity. }
  rewrite A. destruct (exact_or_above (snd (big_int64 d))); eexists; reflexivity.
Qed.

Lemma good32 : good_format float32. Proof. split; simpl; lia. Qed.
Lemma good64 : good_format float64. Proof. split; simpl; lia. Qed.

(* Fractions of float64 precision are small. *)
Lemma frac_small : forall d, representable float64 d -> ~ whole d ->
  Z.abs (num d) < 2 ^ 53 * pow2 (den d).
Proof.
  intros d (n & q & Hn & Hq & He & Hb) Hw. simpl prec in Hn.
  fold (pow2 (den d)) in *. assert (P := pow2_pos (den d)).
  destruct (Z_le_dec 0 q) as [H|H].
  - exfalso. apply Hw. exists (n * 2 ^ q). unfold is_whole.
    rewrite Z.max_l, Z.max_r in He by lia. rewrite Z.pow_0_r in He. unfold pow2 in He. lia.
  - rewrite Z.max_r, Z.max_l in He by lia. rewrite Z.pow_0_r, Z.mul_1_r in He.
    assert (Pq := pw_pos (- q) ltac:(lia)).
    assert (Z.abs (num d) * 2 ^ (- q) = Z.abs n * pow2 (den d)) as E.
    { rewrite <- !abs_scale by lia. congruence. }
    assert (Z.abs (num d) <= Z.abs (num d) * 2 ^ (- q)).
    { rewrite <- (Z.mul_1_r (Z.abs (num d))) at 1. apply Z.mul_le_mono_nonneg_l; lia. }
    assert (Z.abs n * pow2 (den d) < 2 ^ 53 * pow2 (den d)) by (apply Z.mul_lt_mono_pos_r; lia).
    lia.
Qed.

Lemma round32_finite : forall d, representable float64 d -> ~ whole d ->
  exists r, round_to float32 d = Some r.
Proof.
  intros d R W. rewrite round_to_unfold. cbv zeta.
  destruct (_ <=? _) eqn:B; [|eexists; reflexivity]. exfalso.
  assert (S := frac_small d R W). rewrite Z.pow_add_r in B by (simpl; lia).
  fold (pow2 (den d)) in B. assert (P := pow2_pos (den d)).
  set (a := Z.abs (num d)) in *. set (s := place float32 d) in *.
  assert (Hr : round_mantissa a s <= 2 * a \/ round_mantissa a s <= 2 ^ 53 * pow2 (den d)).
  { destruct (Z_lt_dec 0 s) as [Hs|Hs].
    - assert (N := round_nearest_mult a s 0 Hs). rewrite Z.mul_0_l in N. left. lia.
    - left. unfold round_mantissa. replace (s <=? 0) with true by lia. lia. }
  simpl bound in B.
  assert (2 * (2 ^ 53 * pow2 (den d)) < 2 ^ 128 * pow2 (den d)).
  { rewrite Z.mul_assoc. apply Z.mul_lt_mono_pos_r; [exact P|]. reflexivity. }
  apply Z.leb_le in B. assert (0 <= 2 ^ 53 * pow2 (den d)) by (apply Z.mul_nonneg_nonneg; lia).
  destruct Hr; lia.
Qed.

(* Positive fractions: the conversion follows the direction of the float32 rounding. *)
Lemma number_frac : forall d, 0 < num d -> ~ whole d -> representable float64 d ->
  exists x, round_to float32 d = Some x /\ den x = den d
    /\ cty_number_to_native d = Ok (if num d <=? num x then NF32 x else NF64 d).
Proof.
  intros d Hp Hw R. destruct (round32_finite d R Hw) as (x & Ex).
  exists x. split; [exact Ex|].
  assert (Hden : den x = den d).
  { rewrite round_to_unfold in Ex. cbv zeta in Ex. destruct (_ <=? _); [discriminate|].
    injection Ex as <-. reflexivity. }
  split; [exact Hden|].
  unfold cty_number_to_native.
  assert (P := pow2_pos (den d)).
  assert (A1 : exact_or_above (snd (big_int d)) = false).
  { rewrite (big_int_frac d Hw). replace (0 <? num d) with true by lia. reflexivity. }
  assert (A2 : exact_or_above (snd (big_int64 d)) = false).
  { unfold big_int64. replace (num d <? min_int64 * pow2 (den d)) with false.
    - destruct (_ <? num d); [reflexivity|exact A1].
    - symmetry. apply Z.ltb_ge. unfold min_int64.
      assert (- 2 ^ 63 * pow2 (den d) <= 0) by lia. lia. }
  rewrite A2, A1. unfold float_accuracy. rewrite Ex. unfold accuracy_of.
  assert (F : from_float64 d = Ok d).
  { unfold from_float64. rewrite (round_to_exact float64 d good64 R). reflexivity. }
  unfold from_float32. rewrite F. simpl.
  destruct (num d <=? num x) eqn:C.
  - replace (num x <? num d) with false by lia.
    destruct (num d <? num x); simpl; rewrite Ex; reflexivity.
  - replace (num x <? num d) with true by lia. reflexivity.
Qed.
