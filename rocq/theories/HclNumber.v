(* Literal numbers with a point: what they are rounded to and become. *)

From Verif Require Import Base CtyModel CtySpec CtyProofs CtyProofs2 HclModel HclSpec.
From Coq Require Import Lia ZifyBool.
Open Scope Z_scope.

(* Whatever comes out of the rounding is nearest, also where it is too large. *)
Lemma rounded_nearest : forall f d, good_format f ->
  nearest f (mkD (Z.sgn (num d) * round_mantissa (Z.abs (num d)) (place f d)) (den d)) d.
Proof.
  intros f d [Hp Hf].
  set (f' := mkF (prec f) (last_place f)
    (Z.max (bound f) (Z.log2 (round_mantissa (Z.abs (num d)) (place f d)) + 1))).
  assert (P : place f' d = place f d) by reflexivity.
  assert (R : round_to f' d = Some (mkD (Z.sgn (num d) * round_mantissa (Z.abs (num d)) (place f d)) (den d))).
  { rewrite round_to_unfold, P. cbv zeta. set (r := round_mantissa _ _) in *.
    destruct (2 ^ (bound f' + Z.of_nat (den d)) <=? r) eqn:B; [|reflexivity]. exfalso. apply Z.leb_le in B.
    cbn [bound f'] in B. fold r in B.
    assert (Hr : 0 < r).
    { eapply Z.lt_le_trans; [|exact B]. apply pw_pos. lia. }
    pose proof (log2_bounds r Hr) as [_ L].
    assert (2 ^ (Z.log2 r + 1) <= 2 ^ (Z.max (bound f) (Z.log2 r + 1) + Z.of_nat (den d))) by (apply Z.pow_le_mono_r; lia).
    lia. }
  assert (G : good_format f') by (split; cbn; lia).
  pose proof (round_to_nearest f' d _ G R) as N. intros y (n & q & Hn & Hq & He & Hb). apply N.
  exists n, q. split; [exact Hn|]. split; [exact Hq|]. split; [exact He|].
  cbn [bound f']. eapply Z.lt_le_trans; [exact Hb|]. apply Z.mul_le_mono_nonneg_r; [apply Z.pow_nonneg; lia|].
  apply Z.pow_le_mono_r; lia.
Qed.

Definition max32 : dyadic := mkD ((2 ^ 24 - 1) * 2 ^ 104) 0.
Lemma max32_ok : representable float32 max32.
Proof. exists (2 ^ 24 - 1), 104. cbn [prec last_place bound float32 num den max32]. repeat split; try lia; vm_compute; reflexivity. Qed.

(* Rounding overflows only if nothing of the format is above. *)
Lemma round_none : forall f d, good_format f -> 0 < num d -> round_to f d = None ->
  forall n, representable f n -> lt_num n d /\
    (2 ^ bound f * pow2 (den n) * pow2 (den d) <= 2 * num d * pow2 (den n) - num n * pow2 (den d)).
Proof.
  intros f d G Hd H n Rn. pose proof (rounded_nearest f d G n Rn) as N.
  rewrite round_to_unfold in H. cbv zeta in H.
  destruct (Z.leb_spec (2 ^ (bound f + Z.of_nat (den d))) (round_mantissa (Z.abs (num d)) (place f d))) as [B|B];
    [|discriminate].
  set (r := round_mantissa _ _) in *. cbn [num den] in N. rewrite (Z.sgn_pos (num d) Hd), Z.mul_1_l in N.
  destruct Rn as (_ & _ & _ & _ & _ & Hb). fold (pow2 (den n)) in Hb.
  destruct G as [_ G]. rewrite Z.pow_add_r in B by lia. fold (pow2 (den d)) in B.
  pose proof (pow2_pos (den d)) as Pd. pose proof (pow2_pos (den n)) as Pn.
  assert (N' : Z.abs (r - num d) * pow2 (den n) <= Z.abs (num n * pow2 (den d) - num d * pow2 (den n))).
  { apply (Z.mul_le_mono_pos_r _ _ (pow2 (den d)) Pd).
    replace (r * pow2 (den d) - num d * pow2 (den d)) with ((r - num d) * pow2 (den d)) in N by ring.
    rewrite abs_scale in N by lia. nia. }
  assert (K : num n * pow2 (den d) < r * pow2 (den n)).
  { assert (num n < 2 ^ bound f * pow2 (den n)) by lia.
    assert (num n * pow2 (den d) < 2 ^ bound f * pow2 (den n) * pow2 (den d)) by (apply Z.mul_lt_mono_pos_r; lia).
    assert (2 ^ bound f * pow2 (den d) * pow2 (den n) <= r * pow2 (den n)) by (apply Z.mul_le_mono_nonneg_r; lia). lia. }
  assert (K2 : 2 ^ bound f * pow2 (den d) * pow2 (den n) <= r * pow2 (den n)) by (apply Z.mul_le_mono_nonneg_r; lia).
  assert (A : (r - num d) * pow2 (den n) <= Z.abs (r - num d) * pow2 (den n)) by (apply Z.mul_le_mono_nonneg_r; lia).
  unfold lt_num. rewrite Z.mul_sub_distr_r in A. split; lia.
Qed.

(* Beyond half a unit above the largest float32 the rounding overflows. *)
Definition over32 : dyadic := mkD ((2 ^ 25 - 1) * 2 ^ 103) 0.

Lemma round32_over : forall y, le_num over32 y -> round_to float32 y = None.
Proof.
  intros y H. unfold le_num, over32 in H. cbn [num den] in H. change (pow2 0) with 1 in H. rewrite Z.mul_1_r in H.
  pose proof (pow2_pos (den y)) as P.
  assert (Hy : 0 < num y) by (assert (0 < (2 ^ 25 - 1) * 2 ^ 103 * pow2 (den y)) by (apply Z.mul_pos_pos; [reflexivity|lia]); lia).
  rewrite round_to_unfold. cbv zeta.
  destruct (Z.leb_spec (2 ^ (bound float32 + Z.of_nat (den y))) (round_mantissa (Z.abs (num y)) (place float32 y))) as [B|B];
    [reflexivity|exfalso].
  rewrite Z.abs_eq in B by lia. rewrite Z.pow_add_r in B by (cbn; lia). fold (pow2 (den y)) in B. cbn [bound float32] in B.
  destruct (Z.eq_dec (num y) ((2 ^ 25 - 1) * 2 ^ 103 * pow2 (den y))) as [E|E].
  - assert (L : Z.log2 (num y) = 127 + Z.of_nat (den y)).
    { rewrite E. unfold pow2. rewrite <- Z.mul_assoc, <- Z.pow_add_r by lia. rewrite Z.log2_mul_pow2 by lia.
      change (Z.log2 (2 ^ 25 - 1)) with 24. lia. }
    assert (S : place float32 y = 104 + Z.of_nat (den y)).
    { unfold place. cbn [prec last_place float32]. rewrite Z.abs_eq, L by lia. lia. }
    rewrite S in B. unfold round_mantissa in B. replace (104 + Z.of_nat (den y) <=? 0) with false in B by lia.
    cbv zeta in B. rewrite Z.pow_add_r in B by lia. fold (pow2 (den y)) in B.
    assert (Q : num y = (2 ^ 104 * pow2 (den y)) * (2 ^ 24 - 1) + 2 ^ 103 * pow2 (den y)).
    { rewrite E. change (2 ^ 25) with (2 * 2 ^ 24). change (2 ^ 104) with (2 * 2 ^ 103). ring. }
    assert (T : 2 * (2 ^ 103 * pow2 (den y)) = 2 ^ 104 * pow2 (den y)) by (change (2 ^ 104) with (2 * 2 ^ 103); ring).
    assert (T0 : 0 < 2 ^ 103 * pow2 (den y)) by (apply Z.mul_pos_pos; [reflexivity|lia]).
    destruct (Z.div_mod_unique (2 ^ 104 * pow2 (den y)) (2 ^ 24 - 1) (num y / (2 ^ 104 * pow2 (den y)))
                (2 ^ 103 * pow2 (den y)) (num y mod (2 ^ 104 * pow2 (den y)))) as [D1 D2].
    + left. lia.
    + left. apply Z.mod_pos_bound. lia.
    + rewrite <- Q. apply Z.div_mod. lia.
    + rewrite <- D1, <- D2, T, Z.eqb_refl, Z.ltb_irrefl in B. change (Z.odd (2 ^ 24 - 1)) with true in B.
      cbn [andb orb] in B. change (2 ^ 24 - 1 + 1) with (2 ^ 24) in B.
      rewrite Z.mul_assoc, <- Z.pow_add_r in B by lia. change (24 + 104) with 128 in B. lia.
  - pose (f := mkF 24 (-149) 129).
    assert (N : nearest f (mkD (Z.sgn (num y) * round_mantissa (Z.abs (num y)) (place f y)) (den y)) y)
      by (apply rounded_nearest; split; cbn; lia).
    change (place f y) with (place float32 y) in N.
    rewrite Z.abs_eq, (Z.sgn_pos _ Hy), Z.mul_1_l in N by lia.
    set (r := round_mantissa _ _) in *.
    specialize (N (mkD (2 ^ 128) 0)). cbn [num den] in N. change (pow2 0) with 1 in N.
    rewrite !Z.mul_1_r, <- Z.mul_sub_distr_r, abs_scale in N by lia.
    assert (R : representable f (mkD (2 ^ 128) 0)).
    { exists 1, 128. cbn [prec last_place bound f num den]. repeat split; try lia; vm_compute; reflexivity. }
    specialize (N R). apply Z.mul_le_mono_pos_r in N; [|exact P].
    (* r is on the grid of max32 *)
    assert (M : r <= (2 ^ 24 - 1) * 2 ^ 104 * pow2 (den y)).
    { assert (Rr : representable float32 (mkD r (den y))).
      { assert (E32 : round_to float32 y = Some (mkD r (den y))).
        { rewrite round_to_unfold. cbv zeta. rewrite Z.abs_eq, (Z.sgn_pos _ Hy), Z.mul_1_l by lia. fold r.
          rewrite Z.pow_add_r by (cbn; lia). fold (pow2 (den y)). cbn [bound float32].
          replace (2 ^ 128 * pow2 (den y) <=? r) with false by lia. reflexivity. }
        apply (round_to_representable float32 y _ good32 E32). }
      destruct Rr as (n & q & Hn & Hq & He & Hb). cbn [num den prec last_place bound float32] in *.
      fold (pow2 (den y)) in He, Hb.
      destruct (Z_le_dec q 104) as [C|C].
      - assert (Pq : 0 < 2 ^ Z.max 0 (- q)) by (apply pw_pos; lia).
        apply (Z.mul_le_mono_pos_r _ _ (2 ^ Z.max 0 (- q)) Pq). rewrite He.
        assert (2 ^ Z.max 0 q <= 2 ^ 104 * 2 ^ Z.max 0 (- q)).
        { rewrite <- Z.pow_add_r by lia. apply Z.pow_le_mono_r; lia. }
        assert (n * 2 ^ Z.max 0 q <= (2 ^ 24 - 1) * (2 ^ 104 * 2 ^ Z.max 0 (- q))).
        { destruct (Z_le_dec n 0).
          - assert (0 < 2 ^ Z.max 0 q) by (apply pw_pos; lia). assert (n * 2 ^ Z.max 0 q <= 0) by nia.
            assert (0 <= (2 ^ 24 - 1) * (2 ^ 104 * 2 ^ Z.max 0 (- q))) by (apply Z.mul_nonneg_nonneg; lia). lia.
          - apply Z.mul_le_mono_nonneg; try lia. }
        replace ((2 ^ 24 - 1) * 2 ^ 104 * pow2 (den y) * 2 ^ Z.max 0 (- q))
          with ((2 ^ 24 - 1) * (2 ^ 104 * 2 ^ Z.max 0 (- q)) * pow2 (den y)) by ring.
        apply Z.mul_le_mono_nonneg_r; lia.
      - rewrite Z.max_l, Z.max_r in He by lia. rewrite Z.pow_0_r, Z.mul_1_r in He.
        replace q with ((q - 105) + 105) in He by lia. rewrite Z.pow_add_r in He by lia.
        set (g := n * 2 ^ (q - 105)) in *. replace (n * (2 ^ (q - 105) * 2 ^ 105)) with (g * 2 ^ 105) in He by (unfold g; ring).
        assert (g * 2 ^ 105 < 2 ^ 128).
        { apply (Z.mul_lt_mono_pos_r (pow2 (den y))); [exact P|]. lia. }
        change (2 ^ 128) with (2 ^ 23 * 2 ^ 105) in *. assert (g < 2 ^ 23) by (apply Z.mul_lt_mono_pos_r in H0; lia).
        rewrite He. apply Z.mul_le_mono_nonneg_r; [lia|].
        assert (g * 2 ^ 105 <= (2 ^ 23 - 1) * 2 ^ 105) by (apply Z.mul_le_mono_nonneg_r; lia). lia. }
    change (2 ^ 25) with (2 * 2 ^ 24) in *. 
    assert (K : (2 * 2 ^ 24 - 1) * 2 ^ 103 * pow2 (den y) < num y) by lia.
    replace ((2 ^ 24 - 1) * 2 ^ 104 * pow2 (den y)) with (2 ^ 128 * pow2 (den y) - 2 * (2 ^ 103 * pow2 (den y))) in M
      by (change (2 ^ 128) with (2 ^ 24 * 2 ^ 104); change (2 ^ 104) with (2 * 2 ^ 103); ring).
    replace ((2 * 2 ^ 24 - 1) * 2 ^ 103 * pow2 (den y)) with (2 ^ 128 * pow2 (den y) - 2 ^ 103 * pow2 (den y)) in K
      by (change (2 ^ 128) with (2 ^ 24 * 2 * 2 ^ 103); ring).
    assert (0 < 2 ^ 103 * pow2 (den y)) by (apply Z.mul_pos_pos; [reflexivity|lia]).
    lia.
Qed.

Lemma whole_dec : forall d, whole d \/ ~ whole d.
Proof.
  intros d. pose proof (pow2_pos (den d)) as P.
  destruct (Z.eq_dec (num d mod pow2 (den d)) 0) as [E|E].
  - left. exists (num d / pow2 (den d)). unfold is_whole. fold (pow2 (den d)).
    pose proof (Z.div_mod (num d) (pow2 (den d))). lia.
  - right. intros (z & H). unfold is_whole in H. fold (pow2 (den d)) in H. apply E. rewrite H. apply Z.mod_mul. lia.
Qed.

Lemma round_den : forall f d r, round_to f d = Some r -> den r = den d.
Proof.
  intros f d r E. rewrite round_to_unfold in E. cbv zeta in E. destruct (_ <=? _); [discriminate|].
  injection E as <-. reflexivity.
Qed.

(* The conversion of a positive fraction. *)
Lemma frac_convert : forall d, 0 < num d -> ~ whole d ->
  cty_number_to_native d =
    match round_to float32 d with
    | Some n => if num d <=? num n then do x <- from_float32 d; Ok (match x with Some r => NF32 r | None => NInf32 end)
                else do x <- from_float64 d; Ok (NF64 x)
    | None => do x <- from_float32 d; Ok (match x with Some r => NF32 r | None => NInf32 end)
    end.
Proof.
  intros d Hp Hw. unfold cty_number_to_native.
  assert (P := pow2_pos (den d)).
  assert (A1 : exact_or_above (snd (big_int d)) = false).
  { rewrite (big_int_frac d Hw). replace (0 <? num d) with true by lia. reflexivity. }
  assert (A2 : exact_or_above (snd (big_int64 d)) = false).
  { unfold big_int64. replace (num d <? min_int64 * pow2 (den d)) with false.
    - destruct (_ <? num d); [reflexivity|exact A1].
    - symmetry. apply Z.ltb_ge. unfold min_int64.
      assert (- 2 ^ 63 * pow2 (den d) <= 0) by lia. lia. }
  rewrite A2, A1. unfold float_accuracy.
  destruct (round_to float32 d) as [n|].
  - unfold accuracy_of. destruct (num d <=? num n) eqn:C.
    + replace (num n <? num d) with false by lia. destruct (num d <? num n); reflexivity.
    + replace (num n <? num d) with true by lia. reflexivity.
  - replace (0 <? num d) with true by lia. reflexivity.
Qed.

Lemma le_den : forall a b, den a = den b -> num a <= num b -> le_num a b.
Proof.
  intros a b E H. unfold le_num. rewrite E. apply Z.mul_le_mono_nonneg_r; [|exact H].
  pose proof (pow2_pos (den b)). lia.
Qed.
Lemma lt_den : forall a b, den a = den b -> num a < num b -> lt_num a b.
Proof.
  intros a b E H. unfold lt_num. rewrite E. apply Z.mul_lt_mono_pos_r; [|exact H]. apply pow2_pos.
Qed.

(* Rounding keeps the order against numbers of the format. *)
Lemma nearest_le : forall f y d n, nearest f y d -> representable f n -> le_num d n -> le_num y n.
Proof.
  intros f y d n N Rn H. specialize (N n Rn). unfold le_num in *.
  pose proof (pow2_pos (den d)) as Pd. pose proof (pow2_pos (den n)) as Pn. pose proof (pow2_pos (den y)) as Py.
  destruct (Z_le_dec (num y * pow2 (den n)) (num n * pow2 (den y))) as [C|C]; [exact C|exfalso].
  assert (D : num d * pow2 (den n) * pow2 (den y) <= num n * pow2 (den d) * pow2 (den y)) by (apply Z.mul_le_mono_nonneg_r; lia).
  assert (K : num n * pow2 (den y) * pow2 (den d) < num y * pow2 (den n) * pow2 (den d)) by (apply Z.mul_lt_mono_pos_r; lia).
  rewrite <- !abs_scale in N by lia. rewrite !Z.mul_sub_distr_r in N.
  replace (num d * pow2 (den y) * pow2 (den n)) with (num d * pow2 (den n) * pow2 (den y)) in N by ring.
  replace (num y * pow2 (den d) * pow2 (den n)) with (num y * pow2 (den n) * pow2 (den d)) in N by ring.
  replace (num n * pow2 (den d) * pow2 (den y)) with (num n * pow2 (den y) * pow2 (den d)) in N, D by ring.
  lia.
Qed.
Lemma nearest_ge : forall f y d n, nearest f y d -> representable f n -> le_num n d -> le_num n y.
Proof.
  intros f y d n N Rn H. specialize (N n Rn). unfold le_num in *.
  pose proof (pow2_pos (den d)) as Pd. pose proof (pow2_pos (den n)) as Pn. pose proof (pow2_pos (den y)) as Py.
  destruct (Z_le_dec (num n * pow2 (den y)) (num y * pow2 (den n))) as [C|C]; [exact C|exfalso].
  assert (D : num n * pow2 (den d) * pow2 (den y) <= num d * pow2 (den n) * pow2 (den y)) by (apply Z.mul_le_mono_nonneg_r; lia).
  assert (K : num y * pow2 (den n) * pow2 (den d) < num n * pow2 (den y) * pow2 (den d)) by (apply Z.mul_lt_mono_pos_r; lia).
  rewrite <- !abs_scale in N by lia. rewrite !Z.mul_sub_distr_r in N.
  replace (num d * pow2 (den y) * pow2 (den n)) with (num d * pow2 (den n) * pow2 (den y)) in N by ring.
  replace (num y * pow2 (den d) * pow2 (den n)) with (num y * pow2 (den n) * pow2 (den d)) in N by ring.
  replace (num n * pow2 (den d) * pow2 (den y)) with (num n * pow2 (den y) * pow2 (den d)) in N, D by ring.
  lia.
Qed.

Lemma rep32_64 : forall n, representable float32 n -> representable float64 n.
Proof.
  intros n (m & q & Hm & Hq & He & Hb). exists m, q. cbn [prec last_place bound float32 float64] in *.
  split; [|split; [lia|split; [exact He|]]].
  - eapply Z.lt_trans; [exact Hm|reflexivity].
  - eapply Z.lt_trans; [exact Hb|]. apply Z.mul_lt_mono_pos_r; [apply pw_pos; lia|reflexivity].
Qed.

Lemma le_lt_num : forall a b c, le_num a b -> lt_num b c -> lt_num a c.
Proof.
  unfold le_num, lt_num. intros a b c H1 H2.
  pose proof (pow2_pos (den a)) as Pa. pose proof (pow2_pos (den b)) as Pb. pose proof (pow2_pos (den c)) as Pc.
  apply (Z.mul_lt_mono_pos_r (pow2 (den b))); [exact Pb|].
  apply (Z.mul_le_mono_nonneg_r _ _ (pow2 (den c))) in H1; [|lia].
  apply (Z.mul_lt_mono_pos_r (pow2 (den a))) in H2; [|lia]. lia.
Qed.
Lemma le_num_trans : forall a b c, le_num a b -> le_num b c -> le_num a c.
Proof.
  unfold le_num. intros a b c H1 H2.
  pose proof (pow2_pos (den a)) as Pa. pose proof (pow2_pos (den b)) as Pb. pose proof (pow2_pos (den c)) as Pc.
  apply (Z.mul_le_mono_pos_r _ _ (pow2 (den b))); [exact Pb|].
  apply (Z.mul_le_mono_nonneg_r _ _ (pow2 (den c))) in H1; [|lia].
  apply (Z.mul_le_mono_nonneg_r _ _ (pow2 (den a))) in H2; [|lia]. lia.
Qed.

Lemma round_none_over : forall d, 0 < num d -> round_to float32 d = None -> le_num over32 d.
Proof.
  intros d Hd H. destruct (round_none float32 d good32 Hd H max32 max32_ok) as [_ K].
  unfold le_num, over32, max32 in *. cbn [num den bound float32] in *. change (pow2 0) with 1 in *.
  rewrite !Z.mul_1_r in *. change (2 ^ 128) with (2 ^ 24 * 2 * 2 ^ 103) in K. change (2 ^ 104) with (2 * 2 ^ 103) in K.
  change (2 ^ 25) with (2 * 2 ^ 24). pose proof (pow2_pos (den d)).
  assert (0 < 2 ^ 103 * pow2 (den d)) by (apply Z.mul_pos_pos; [reflexivity|lia]).
  replace ((2 * 2 ^ 24 - 1) * 2 ^ 103 * pow2 (den d)) with ((2 * 2 ^ 24 - 1) * (2 ^ 103 * pow2 (den d))) by ring.
  replace (2 ^ 24 * 2 * 2 ^ 103 * pow2 (den d)) with (2 ^ 24 * 2 * (2 ^ 103 * pow2 (den d))) in K by ring.
  replace ((2 ^ 24 - 1) * (2 * 2 ^ 103) * pow2 (den d)) with ((2 ^ 24 - 1) * 2 * (2 ^ 103 * pow2 (den d))) in K by ring.
  lia.
Qed.

Lemma over32_ok64 : representable float64 over32.
Proof. exists (2 ^ 25 - 1), 103. cbn [prec last_place bound float64 num den over32]. repeat split; try lia; vm_compute; reflexivity. Qed.

Lemma native_whole : forall d z v, is_whole d z -> cty_number_to_native d = Ok v -> in_int64 z /\ native_int z v.
Proof.
  intros d z v W H. assert (D : in_int64 z \/ ~ in_int64 z) by (unfold in_int64; lia). destruct D as [D|D].
  - split; [exact D|]. destruct (number_int d z W D) as (v' & E & N). congruence.
  - destruct (number_err d) as (e & E); [|congruence]. left. split; [exists z; exact W|].
    intros z' W' I'. apply D. replace z with z'; [exact I'|]. unfold is_whole in *.
    pose proof (pow2_pos (den d)) as P. fold (pow2 (den d)) in *. nia.
Qed.

(* What a number becomes, whatever its precision. *)
Theorem literal_sound : forall d v, cty_number_to_native d = Ok v -> literal_native d v.
Proof.
  intros d v H. destruct (whole_dec d) as [[z W]|W].
  { destruct (native_whole d z v W H). eapply ln_int; eassumption. }
  destruct (Z_lt_dec 0 (num d)) as [Hd|Hd].
  2:{ destruct (number_err d) as (e & E); [|congruence]. right. split; [|exact W].
      destruct (Z.eq_dec (num d) 0) as [E0|E0]; [|lia]. exfalso. apply W. exists 0. unfold is_whole. lia. }
  rewrite (frac_convert d Hd W) in H.
  destruct (round_to float32 d) as [n|] eqn:E.
  - pose proof (round_to_nearest _ _ _ good32 E) as Nn. pose proof (round_to_representable _ _ _ good32 E) as Rn.
    pose proof (round_den _ _ _ E) as Dn.
    unfold from_float32, from_float64 in H. destruct (round_to float64 d) as [y|] eqn:E64.
    2:{ destruct (num d <=? num n); discriminate. }
    cbn [bindr] in H.
    pose proof (round_to_nearest _ _ _ good64 E64) as Ny. pose proof (round_to_representable _ _ _ good64 E64) as Ry.
    destruct (num d <=? num n) eqn:C.
    + apply Z.leb_le in C. assert (L : le_num d n) by (apply le_den; [congruence|exact C]).
      assert (Ly : le_num y n) by exact (nearest_le float64 y d n Ny (rep32_64 n Rn) L).
      destruct (round_to float32 y) as [x|] eqn:Ex.
      * injection H as <-. eapply ln_f32; try eassumption.
        -- apply (round_to_nearest _ _ _ good32 Ex).
        -- apply (round_to_representable _ _ _ good32 Ex).
      * exfalso.
        assert (Hy : 0 < num y).
        { destruct (Z_lt_dec 0 (num y)) as [Y|Y]; [exact Y|exfalso].
          rewrite round_to_unfold in Ex. cbv zeta in Ex. rewrite round_to_unfold in E64. cbv zeta in E64.
          destruct (_ <=? round_mantissa (Z.abs (num d)) _); [discriminate|]. injection E64 as <-.
          cbn [num] in Y. rewrite (Z.sgn_pos _ Hd), Z.mul_1_l in Y.
          assert (0 <= round_mantissa (Z.abs (num d)) (place float64 d)).
          { unfold round_mantissa. destruct (_ <=? 0); [lia|].
            assert (0 < 2 ^ place float64 d \/ place float64 d < 0) as [Q|Q].
            { destruct (Z_lt_dec (place float64 d) 0); [right; lia|left; apply pw_pos; lia]. }
            - assert (0 <= Z.abs (num d) / 2 ^ place float64 d) by (apply Z.div_pos; lia).
              destruct (_ || _); apply Z.mul_nonneg_nonneg; lia.
            - rewrite Z.pow_neg_r by lia. rewrite Z.mul_0_r. lia. }
          assert (Y0 : round_mantissa (Z.abs (num d)) (place float64 d) = 0) by lia. rewrite Y0 in Ex.
          cbn [num den] in Ex. rewrite Z.mul_0_r in Ex. change (Z.abs 0) with 0 in Ex.
          assert (Z0 : forall s, round_mantissa 0 s = 0).
          { intros s. unfold round_mantissa. destruct (s <=? 0) eqn:Qs; [reflexivity|].
            assert (0 < 2 ^ s) by (apply pw_pos; lia).
            rewrite Z.div_0_l, Z.mod_0_l by lia. cbv zeta. replace (2 ^ s <? 2 * 0) with false by lia.
            replace (2 * 0 =? 2 ^ s) with false by lia. reflexivity. }
          rewrite Z0 in Ex. replace (2 ^ (bound float32 + Z.of_nat (den d)) <=? 0) with false in Ex; [discriminate|].
          symmetry. apply Z.leb_gt. apply pw_pos. cbn [bound float32]. lia. }
        destruct (round_none float32 y good32 Hy Ex n Rn) as [K _].
        unfold lt_num in K. unfold le_num in Ly. lia.
    + apply Z.leb_gt in C. injection H as <-. eapply ln_f64; try eassumption. apply lt_den; [congruence|exact C].
  - pose proof (round_none_over d Hd E) as O.
    unfold from_float32, from_float64 in H. destruct (round_to float64 d) as [y|] eqn:E64; [|discriminate].
    cbn [bindr] in H.
    pose proof (round_to_nearest _ _ _ good64 E64) as Ny.
    rewrite (round32_over y (nearest_ge _ _ _ _ Ny over32_ok64 O)) in H. injection H as <-.
    apply ln_inf; [exact W|exact O|].
    (* float64 does not overflow *)
    rewrite round_to_unfold in E64. cbv zeta in E64.
    destruct (Z.leb_spec (2 ^ (bound float64 + Z.of_nat (den d))) (round_mantissa (Z.abs (num d)) (place float64 d))) as [B|B];
      [discriminate|]. rewrite Z.abs_eq in B by lia.
    unfold lt_num. cbn [num den]. change (pow2 0) with 1. rewrite Z.mul_1_r.
    rewrite Z.pow_add_r in B by (cbn [bound float64]; lia). fold (pow2 (den d)) in B. cbn [bound float64] in B.
    destruct (Z_lt_dec (num d) (2 ^ 1024 * pow2 (den d))) as [G|G]; [exact G|exfalso].
    destruct (Z_lt_dec 0 (place float64 d)) as [Hs|Hs].
    + pose proof (pow2_pos (den d)) as P.
      pose (f := mkF 53 (-1074) (Z.max 1025 (Z.log2 (num d) + 1))).
      assert (N : nearest f (mkD (Z.sgn (num d) * round_mantissa (Z.abs (num d)) (place f d)) (den d)) d)
        by (apply rounded_nearest; split; cbn; lia).
      assert (R : representable f (mkD (2 ^ 1024) 0)).
      { exists 1, 1024. cbn [prec last_place bound f num den]. split; [reflexivity|]. split; [lia|]. split; [reflexivity|].
        eapply Z.lt_le_trans with (2 ^ 1025 * 1); [reflexivity|]. apply Z.mul_le_mono_nonneg_r; [lia|].
        apply Z.pow_le_mono_r; lia. }
      assert (LN : le_num (mkD (2 ^ 1024) 0) d).
      { unfold le_num. cbn [num den]. change (pow2 0) with 1. rewrite Z.mul_1_r.
        apply Z.nlt_ge. exact G. }
      pose proof (nearest_ge _ _ _ _ N R LN) as LL. unfold le_num in LL. cbn [num den] in LL.
      change (place f d) with (place float64 d) in LL. rewrite Z.abs_eq, (Z.sgn_pos _ Hd), Z.mul_1_l in LL by lia.
      change (pow2 0) with 1 in LL. rewrite Z.mul_1_r in LL. apply (Z.lt_irrefl (2 ^ 1024 * pow2 (den d))).
      eapply Z.le_lt_trans; [exact LL|exact B].
    + unfold round_mantissa in B. replace (place float64 d <=? 0) with true in B by lia. lia.
Qed.

(* ----- decimal literals ----- *)

Definition value_is (d : dyadic) (n u : Z) : Prop :=
  d = mkD (n * 2 ^ Z.max 0 u) (Z.to_nat (Z.max 0 (- u))).

Lemma ratio_spec : forall p a b, 0 < p -> 0 < a -> 0 < b ->
  exists n u, value_is (ratio p a b) n u
    /\ 2 ^ (p - 1) * (b * 2 ^ Z.max 0 u) <= a * 2 ^ Z.max 0 (- u)
    /\ a * 2 ^ Z.max 0 (- u) < 2 ^ p * (b * 2 ^ Z.max 0 u)
    /\ 2 * Z.abs (n * (b * 2 ^ Z.max 0 u) - a * 2 ^ Z.max 0 (- u)) <= b * 2 ^ Z.max 0 u.
Proof.
  intros p a b Hp Ha Hb. unfold ratio.
  set (e := Z.log2 a - Z.log2 b). cbv zeta.
  set (e' := if (if 0 <=? e then a <? b * 2 ^ e else a * 2 ^ (- e) <? b) then e - 1 else e).
  set (u := e' + 1 - p).
  set (x := if u <? 0 then a * 2 ^ (- u) else a). set (y := if u <? 0 then b else b * 2 ^ u).
  assert (Ex : x = a * 2 ^ Z.max 0 (- u)).
  { unfold x. destruct (u <? 0) eqn:C; [rewrite Z.max_r by lia; reflexivity|rewrite Z.max_l by lia; lia]. }
  assert (Ey : y = b * 2 ^ Z.max 0 u).
  { unfold y. destruct (u <? 0) eqn:C; [rewrite Z.max_l by lia; lia|rewrite Z.max_r by lia; reflexivity]. }
  set (n := if (y <? 2 * (x mod y)) || ((2 * (x mod y) =? y) && Z.odd (x / y)) then x / y + 1 else x / y).
  exists n, u.
  assert (Hy : 0 < y) by (rewrite Ey; apply Z.mul_pos_pos; [exact Hb|apply pw_pos; lia]).
  destruct (log2_bounds a Ha) as [A1 A2]. destruct (log2_bounds b Hb) as [B1 B2].
  pose proof (Z.log2_nonneg a) as La. pose proof (Z.log2_nonneg b) as Lb.
  (* 2^e' <= a / b < 2^(e'+1) *)
  assert (E1 : b * 2 ^ Z.max 0 e' <= a * 2 ^ Z.max 0 (- e')).
  { unfold e'. destruct (0 <=? e) eqn:Ce.
    - destruct (a <? b * 2 ^ e) eqn:Ca.
      + (* 2^(e-1) b < 2^(la) <= a *)
        apply Z.leb_le in Ce. destruct (Z.eq_dec e 0) as [E0|E0].
        * rewrite E0. change (Z.max 0 (0 - 1)) with 0. change (Z.max 0 (- (0 - 1))) with 1.
          assert (EE : Z.log2 a = Z.log2 b) by lia. rewrite EE in A1.
          change (2 ^ 0) with 1. change (2 ^ 1) with 2. rewrite Z.pow_add_r in B2 by lia. lia.
        * rewrite Z.max_r, Z.max_l by lia. rewrite Z.pow_0_r, Z.mul_1_r.
          assert (b * 2 ^ (e - 1) < 2 ^ (Z.log2 b + 1) * 2 ^ (e - 1)) by (apply Z.mul_lt_mono_pos_r; [apply pw_pos; lia|exact B2]).
          rewrite <- Z.pow_add_r in H by lia. replace (Z.log2 b + 1 + (e - 1)) with (Z.log2 a) in H by lia. lia.
      + apply Z.leb_le in Ce. rewrite Z.max_r, Z.max_l by lia. lia.
    - apply Z.leb_gt in Ce. destruct (a * 2 ^ (- e) <? b) eqn:Ca.
      + rewrite Z.max_l, Z.max_r by lia.
        assert (2 ^ Z.log2 a * 2 ^ (- (e - 1)) <= a * 2 ^ (- (e - 1))).
        { apply Z.mul_le_mono_nonneg_r; [apply Z.pow_nonneg; lia|exact A1]. }
        rewrite <- Z.pow_add_r in H by lia. replace (Z.log2 a + - (e - 1)) with (Z.log2 b + 1) in H by lia. lia.
      + rewrite Z.max_l, Z.max_r by lia. lia. }
  assert (E2 : a * 2 ^ Z.max 0 (- (e' + 1)) < b * 2 ^ Z.max 0 (e' + 1)).
  { unfold e'. destruct (0 <=? e) eqn:Ce.
    - apply Z.leb_le in Ce. destruct (a <? b * 2 ^ e) eqn:Ca.
      + replace (e - 1 + 1) with e by lia. rewrite Z.max_l, Z.max_r by lia. lia.
      + rewrite Z.max_l, Z.max_r by lia. rewrite Z.pow_0_r, Z.mul_1_r.
        assert (2 ^ Z.log2 b * 2 ^ (e + 1) <= b * 2 ^ (e + 1)) by (apply Z.mul_le_mono_nonneg_r; [apply Z.pow_nonneg; lia|exact B1]).
        rewrite <- Z.pow_add_r in H by lia. replace (Z.log2 b + (e + 1)) with (Z.log2 a + 1) in H by lia. lia.
    - apply Z.leb_gt in Ce. destruct (a * 2 ^ (- e) <? b) eqn:Ca.
      + replace (e - 1 + 1) with e by lia. rewrite Z.max_r, Z.max_l by lia. lia.
      + destruct (Z.eq_dec e (-1)) as [E0|E0].
        * rewrite E0. change (-1 + 1) with 0. change (2 ^ Z.max 0 (- 0)) with 1. change (2 ^ Z.max 0 0) with 1.
          replace (Z.log2 b) with (Z.log2 a + 1) in B1 by lia. lia.
        * rewrite Z.max_r, Z.max_l by lia. rewrite Z.pow_0_r, Z.mul_1_r.
          assert (a * 2 ^ (- (e + 1)) < 2 ^ (Z.log2 a + 1) * 2 ^ (- (e + 1))) by (apply Z.mul_lt_mono_pos_r; [apply pw_pos; lia|exact A2]).
          rewrite <- Z.pow_add_r in H by lia. replace (Z.log2 a + 1 + - (e + 1)) with (Z.log2 b) in H by lia. lia. }
  (* scaled to the last place *)
  assert (K1 : 2 ^ (p - 1) * y <= x).
  { rewrite Ex, Ey. set (M := 2 ^ (Z.max 0 (- e'))).
    assert (PM : 0 < M) by (apply pw_pos; lia).
    apply (Z.mul_le_mono_pos_r _ _ M PM).
    apply (Z.mul_le_mono_nonneg_r _ _ (2 ^ Z.max 0 (- u))) in E1; [|apply Z.pow_nonneg; lia].
    fold M in E1.
    replace (2 ^ (p - 1) * (b * 2 ^ Z.max 0 u) * M) with (b * 2 ^ Z.max 0 e' * 2 ^ Z.max 0 (- u)).
    - replace (a * 2 ^ Z.max 0 (- u) * M) with (a * M * 2 ^ Z.max 0 (- u)) by ring. exact E1.
    - rewrite <- Z.mul_assoc. replace (2 ^ (p - 1) * (b * 2 ^ Z.max 0 u) * M) with (b * (2 ^ (p - 1) * 2 ^ Z.max 0 u * M)) by ring.
      f_equal. unfold M. rewrite <- !Z.pow_add_r by lia. f_equal. lia. }
  assert (K2 : x < 2 ^ p * y).
  { rewrite Ex, Ey. set (M := 2 ^ (Z.max 0 (- (e' + 1)))).
    assert (PM : 0 < M) by (apply pw_pos; lia).
    apply (Z.mul_lt_mono_pos_r M _ _ PM).
    apply (Z.mul_lt_mono_pos_r (2 ^ Z.max 0 (- u))) in E2; [|apply pw_pos; lia].
    fold M in E2.
    replace (2 ^ p * (b * 2 ^ Z.max 0 u) * M) with (b * 2 ^ Z.max 0 (e' + 1) * 2 ^ Z.max 0 (- u)).
    - replace (a * 2 ^ Z.max 0 (- u) * M) with (a * M * 2 ^ Z.max 0 (- u)) by ring. exact E2.
    - rewrite <- Z.mul_assoc. replace (2 ^ p * (b * 2 ^ Z.max 0 u) * M) with (b * (2 ^ p * 2 ^ Z.max 0 u * M)) by ring.
      f_equal. unfold M. rewrite <- !Z.pow_add_r by lia. f_equal. lia. }
  rewrite Ex, Ey in K1, K2. split; [|split; [exact K1|split; [exact K2|]]].
  - unfold value_is. destruct (u <? 0) eqn:C.
    + rewrite Z.max_l, Z.max_r by lia. rewrite Z.pow_0_r, Z.mul_1_r. reflexivity.
    + rewrite Z.max_r, Z.max_l by lia. reflexivity.
  - rewrite <- Ex, <- Ey. pose proof (Z.div_mod x y ltac:(lia)) as D. pose proof (Z.mod_pos_bound x y Hy) as R.
    unfold n. destruct (y <? 2 * (x mod y)) eqn:C1; cbn [orb].
    + rewrite Z.mul_add_distr_r. lia.
    + destruct (2 * (x mod y) =? y) eqn:C2; cbn [andb]; [|lia]. destruct (Z.odd (x / y)); lia.
Qed.

Lemma nearest_multiple : forall n c x y, 0 < y -> 2 * Z.abs (n * y - x) <= y ->
  Z.abs (n * y - x) <= Z.abs (c * y - x).
Proof.
  intros n c x y Hy H. destruct (Z.eq_dec n c) as [->|N]; [lia|].
  assert (Z.abs (c * y - n * y) >= y).
  { rewrite <- Z.mul_sub_distr_r, abs_scale by lia. nia. }
  lia.
Qed.

Lemma pow2_to_nat : forall z, 0 <= z -> pow2 (Z.to_nat z) = 2 ^ z.
Proof. intros z H. unfold pow2. rewrite Z2Nat.id by exact H. reflexivity. Qed.

Lemma ratio_nearest : forall p a b y, 0 < p -> 0 < a -> 0 < b -> bits p y ->
  Z.abs (num (ratio p a b) * b - a * pow2 (den (ratio p a b))) * pow2 (den y)
  <= Z.abs (num y * b - a * pow2 (den y)) * pow2 (den (ratio p a b)).
Proof.
  intros p a b y Hp Ha Hb (c & q & Hc & Ey).
  destruct (ratio_spec p a b Hp Ha Hb) as (n & u & -> & K1 & K2 & N). cbn [num den].
  fold (pow2 (den y)) in Ey. pose proof (pow2_pos (den y)) as Py. rewrite pow2_to_nat by lia.
  set (A := 2 ^ Z.max 0 (- u)) in *. set (B := 2 ^ Z.max 0 u) in *.
  assert (PA : 0 < A) by (apply pw_pos; lia). assert (PB : 0 < B) by (apply pw_pos; lia).
  assert (PY : 0 < b * B) by (apply Z.mul_pos_pos; lia).
  replace (n * B * b - a * A) with (n * (b * B) - a * A) by ring.
  assert (PQ : 0 < 2 ^ Z.max 0 (- q)) by (apply pw_pos; lia).
  destruct (Z_le_dec u q) as [C|C].
  - assert (E : num y * A = c * 2 ^ (q - u) * B * pow2 (den y)).
    { apply (Z.mul_reg_r _ _ (2 ^ Z.max 0 (- q))); [lia|].
      replace (num y * A * 2 ^ Z.max 0 (- q)) with (num y * 2 ^ Z.max 0 (- q) * A) by ring. rewrite Ey.
      replace (c * 2 ^ Z.max 0 q * pow2 (den y) * A) with (c * pow2 (den y) * (2 ^ Z.max 0 q * A)) by ring.
      replace (c * 2 ^ (q - u) * B * pow2 (den y) * 2 ^ Z.max 0 (- q))
        with (c * pow2 (den y) * (2 ^ (q - u) * B * 2 ^ Z.max 0 (- q))) by ring.
      f_equal. unfold A, B. rewrite <- !Z.pow_add_r by lia. f_equal. lia. }
    rewrite <- (abs_scale _ A) by lia. rewrite Z.mul_sub_distr_r.
    replace (num y * b * A) with (num y * A * b) by ring. rewrite E.
    replace (c * 2 ^ (q - u) * B * pow2 (den y) * b - a * pow2 (den y) * A)
      with ((c * 2 ^ (q - u) * (b * B) - a * A) * pow2 (den y)) by ring.
    rewrite (abs_scale _ (pow2 (den y))) by lia. apply Z.mul_le_mono_nonneg_r; [lia|].
    apply nearest_multiple; assumption.
  - assert (E : num y * A <= 2 ^ (p - 1) * B * pow2 (den y)).
    { apply (Z.mul_le_mono_pos_r _ _ (2 ^ Z.max 0 (- q)) PQ).
      replace (num y * A * 2 ^ Z.max 0 (- q)) with (num y * 2 ^ Z.max 0 (- q) * A) by ring. rewrite Ey.
      apply Z.le_trans with (2 ^ p * 2 ^ Z.max 0 q * pow2 (den y) * A).
      - apply Z.mul_le_mono_nonneg_r; [lia|]. apply Z.mul_le_mono_nonneg_r; [lia|].
        apply Z.mul_le_mono_nonneg_r; [apply Z.pow_nonneg; lia|]. lia.
      - replace (2 ^ p * 2 ^ Z.max 0 q * pow2 (den y) * A) with (2 ^ p * 2 ^ Z.max 0 q * A * pow2 (den y)) by ring.
        replace (2 ^ (p - 1) * B * pow2 (den y) * 2 ^ Z.max 0 (- q)) with (2 ^ (p - 1) * B * 2 ^ Z.max 0 (- q) * pow2 (den y)) by ring.
        apply Z.mul_le_mono_nonneg_r; [lia|]. unfold A, B. rewrite <- !Z.pow_add_r by lia. apply Z.pow_le_mono_r; lia. }
    pose proof (nearest_multiple n (2 ^ (p - 1)) (a * A) (b * B) PY N) as M.
    assert (G : Z.abs (n * (b * B) - a * A) <= a * A - 2 ^ (p - 1) * (b * B)) by lia.
    apply Z.le_trans with ((a * A - 2 ^ (p - 1) * (b * B)) * pow2 (den y)).
    { apply Z.mul_le_mono_nonneg_r; lia. }
    rewrite <- (abs_scale _ A) by lia. rewrite !Z.mul_sub_distr_r.
    apply (Z.mul_le_mono_nonneg_r _ _ b) in E; [|lia].
    replace (num y * b * A) with (num y * A * b) by ring.
    replace (a * pow2 (den y) * A) with (a * A * pow2 (den y)) by ring.
    replace (2 ^ (p - 1) * (b * B) * pow2 (den y)) with (2 ^ (p - 1) * B * pow2 (den y) * b) by ring.
    lia.
Qed.

Lemma ratio_pos : forall p a b, 0 < p -> 0 < a -> 0 < b -> 0 < num (ratio p a b).
Proof.
  intros p a b Hp Ha Hb. destruct (ratio_spec p a b Hp Ha Hb) as (n & u & -> & K1 & K2 & N). cbn [num].
  set (B := 2 ^ Z.max 0 u) in *. assert (PB : 0 < B) by (apply pw_pos; lia).
  apply Z.mul_pos_pos; [|exact PB].
  assert (PY : 0 < b * B) by (apply Z.mul_pos_pos; lia).
  destruct (Z_lt_dec 0 n) as [H|H]; [exact H|exfalso].
  assert (n * (b * B) <= 0) by nia.
  assert (1 * (b * B) <= 2 ^ (p - 1) * (b * B)).
  { apply Z.mul_le_mono_nonneg_r; [lia|]. assert (0 < 2 ^ (p - 1)) by (apply pw_pos; lia). lia. }
  lia.
Qed.

Lemma ten_pos : forall k, 0 < 10 ^ Z.of_nat k.
Proof. intros k. apply Z.pow_pos_nonneg; lia. Qed.

(* A decimal literal is read as a nearest number of 512 bits. *)
Theorem decimal_nearest : forall m k y, bits 512 y ->
  Z.abs (num (decimal m k) * 10 ^ Z.of_nat k - m * pow2 (den (decimal m k))) * pow2 (den y)
  <= Z.abs (num y * 10 ^ Z.of_nat k - m * pow2 (den y)) * pow2 (den (decimal m k)).
Proof.
  intros m k y Hy. unfold decimal. destruct (m =? 0) eqn:E.
  - assert (m = 0) by lia. subst m. cbn [num den]. change (pow2 0) with 1. rewrite !Z.mul_0_l. cbn [Z.sub Z.abs].
    rewrite Z.mul_1_r. change (Z.abs (0 - 0)) with 0. lia.
  - pose proof (ten_pos k) as T. assert (Hm : 0 < Z.abs m) by lia. cbv zeta. cbn [num den].
    set (r := ratio 512 (Z.abs m) (10 ^ Z.of_nat k)).
    assert (S : Z.sgn m = 1 \/ Z.sgn m = -1) by lia.
    set (y' := mkD (Z.sgn m * num y) (den y)).
    assert (Hy' : bits 512 y').
    { destruct Hy as (c & q & Hc & Ey). exists (Z.sgn m * c), q. split.
      - destruct S as [-> | ->]; lia.
      - unfold y'. cbn [num den]. rewrite <- !Z.mul_assoc. f_equal. rewrite Z.mul_assoc. exact Ey. }
    pose proof (ratio_nearest 512 (Z.abs m) (10 ^ Z.of_nat k) y' ltac:(lia) Hm T Hy') as N. fold r in N.
    unfold y' in N. cbn [num den] in N.
    assert (Em : m = Z.sgn m * Z.abs m) by lia.
    assert (F : forall z w, Z.abs (Z.sgn m * z * 10 ^ Z.of_nat k - m * w) = Z.abs (z * 10 ^ Z.of_nat k - Z.abs m * w)).
    { intros z w. rewrite Em at 2. replace (Z.sgn m * z * 10 ^ Z.of_nat k - Z.sgn m * Z.abs m * w)
        with (Z.sgn m * (z * 10 ^ Z.of_nat k - Z.abs m * w)) by ring. rewrite Z.abs_mul.
      replace (Z.abs (Z.sgn m)) with 1 by lia. lia. }
    rewrite F.
    assert (G : Z.abs (Z.sgn m * num y * 10 ^ Z.of_nat k - Z.abs m * pow2 (den y))
                = Z.abs (num y * 10 ^ Z.of_nat k - m * pow2 (den y))).
    { rewrite <- F. f_equal. rewrite (Z.mul_assoc (Z.sgn m)). replace (Z.sgn m * Z.sgn m) with 1 by lia. lia. }
    rewrite G in N. exact N.
Qed.

(* It is exact where that is possible. *)
Theorem decimal_exact : forall m k y, bits 512 y -> num y * 10 ^ Z.of_nat k = m * pow2 (den y) ->
  same_num y (decimal m k).
Proof.
  intros m k y Hy E. pose proof (decimal_nearest m k y Hy) as N. rewrite E, Z.sub_diag in N. cbn [Z.abs] in N.
  rewrite Z.mul_0_l in N. pose proof (pow2_pos (den y)) as Py. pose proof (pow2_pos (den (decimal m k))) as Pd.
  pose proof (ten_pos k) as T.
  assert (Q : num (decimal m k) * 10 ^ Z.of_nat k = m * pow2 (den (decimal m k))) by nia.
  unfold same_num. apply (Z.mul_reg_r _ _ (10 ^ Z.of_nat k)); [lia|].
  replace (num y * pow2 (den (decimal m k)) * 10 ^ Z.of_nat k) with (num y * 10 ^ Z.of_nat k * pow2 (den (decimal m k))) by ring.
  replace (num (decimal m k) * pow2 (den y) * 10 ^ Z.of_nat k) with (num (decimal m k) * 10 ^ Z.of_nat k * pow2 (den y)) by ring.
  rewrite E, Q. ring.
Qed.

Lemma decimal_le : forall m k y, bits 512 y -> m * pow2 (den y) <= num y * 10 ^ Z.of_nat k -> le_num (decimal m k) y.
Proof.
  intros m k y Hy L. pose proof (decimal_nearest m k y Hy) as N. unfold le_num.
  set (r := decimal m k) in *. pose proof (pow2_pos (den y)) as Py. pose proof (pow2_pos (den r)) as Pr.
  pose proof (ten_pos k) as T.
  destruct (Z_le_dec (num r * pow2 (den y)) (num y * pow2 (den r))) as [C|C]; [exact C|exfalso].
  assert (K : num y * pow2 (den r) * 10 ^ Z.of_nat k < num r * pow2 (den y) * 10 ^ Z.of_nat k) by (apply Z.mul_lt_mono_pos_r; lia).
  apply (Z.mul_le_mono_nonneg_r _ _ (pow2 (den r))) in L; [|lia].
  rewrite <- !abs_scale in N by lia. rewrite !Z.mul_sub_distr_r in N.
  replace (num r * 10 ^ Z.of_nat k * pow2 (den y)) with (num r * pow2 (den y) * 10 ^ Z.of_nat k) in N by ring.
  replace (m * pow2 (den r) * pow2 (den y)) with (m * pow2 (den y) * pow2 (den r)) in N by ring.
  replace (num y * 10 ^ Z.of_nat k * pow2 (den r)) with (num y * pow2 (den r) * 10 ^ Z.of_nat k) in N, L by ring.
  lia.
Qed.

Lemma decimal_ge : forall m k y, bits 512 y -> num y * 10 ^ Z.of_nat k <= m * pow2 (den y) -> le_num y (decimal m k).
Proof.
  intros m k y Hy L. pose proof (decimal_nearest m k y Hy) as N. unfold le_num.
  set (r := decimal m k) in *. pose proof (pow2_pos (den y)) as Py. pose proof (pow2_pos (den r)) as Pr.
  pose proof (ten_pos k) as T.
  destruct (Z_le_dec (num y * pow2 (den r)) (num r * pow2 (den y))) as [C|C]; [exact C|exfalso].
  assert (K : num r * pow2 (den y) * 10 ^ Z.of_nat k < num y * pow2 (den r) * 10 ^ Z.of_nat k) by (apply Z.mul_lt_mono_pos_r; lia).
  apply (Z.mul_le_mono_nonneg_r _ _ (pow2 (den r))) in L; [|lia].
  rewrite <- !abs_scale in N by lia. rewrite !Z.mul_sub_distr_r in N.
  replace (num r * 10 ^ Z.of_nat k * pow2 (den y)) with (num r * pow2 (den y) * 10 ^ Z.of_nat k) in N by ring.
  replace (m * pow2 (den r) * pow2 (den y)) with (m * pow2 (den y) * pow2 (den r)) in N by ring.
  replace (num y * 10 ^ Z.of_nat k * pow2 (den r)) with (num y * pow2 (den r) * 10 ^ Z.of_nat k) in N, L by ring.
  lia.
Qed.

Lemma bits_int : forall z, Z.abs z < 2 ^ 512 -> bits 512 (mkD z 0).
Proof. intros z H. exists z, 0. split; [exact H|]. cbn [num den]. change (2 ^ Z.max 0 (- 0)) with 1. change (2 ^ Z.max 0 0) with 1. change (2 ^ Z.of_nat 0) with 1. lia. Qed.

Lemma decimal_nonneg : forall m k, 0 <= m -> 0 <= num (decimal m k).
Proof.
  intros m k H. pose proof (decimal_ge m k (mkD 0 0) (bits_int 0 ltac:(reflexivity))) as L.
  unfold le_num in L. cbn [num den] in L. change (pow2 0) with 1 in L. lia.
Qed.

Lemma frac_total : forall d, 0 < num d -> num d < 2 ^ 1023 * pow2 (den d) -> ~ whole d ->
  exists v, cty_number_to_native d = Ok v.
Proof.
  intros d Hd Hb W. rewrite (frac_convert d Hd W). unfold from_float32, from_float64.
  destruct (round_to float64 d) as [y|] eqn:E.
  - cbn [bindr]. destruct (round_to float32 d) as [n|]; [|eexists; reflexivity].
    destruct (num d <=? num n); eexists; reflexivity.
  - exfalso. assert (R0 : representable float64 (mkD 0 0)).
    { exists 0, 0. cbn [prec last_place bound float64 num den]. repeat split; try lia; try reflexivity. }
    destruct (round_none float64 d good64 Hd E (mkD 0 0) R0) as [_ K]. cbn [num den bound float64] in K.
    change (pow2 0) with 1 in K. rewrite !Z.mul_1_r, Z.mul_0_l, Z.sub_0_r in K.
    apply (Z.mul_lt_mono_pos_l 2) in Hb; [|reflexivity]. rewrite Z.mul_assoc in Hb.
    apply (Z.lt_irrefl (2 * num d)). eapply Z.lt_le_trans; [exact Hb|].
    exact K.
Qed.

(* Literals up to the largest int64 are accepted. *)
Theorem decimal_total : forall m k, 0 <= m <= (2 ^ 63 - 1) * 10 ^ Z.of_nat k ->
  exists v, cty_number_to_native (decimal m k) = Ok v.
Proof.
  intros m k [H0 H1]. set (d := decimal m k).
  assert (N0 : 0 <= num d) by (apply decimal_nonneg; exact H0).
  assert (L : le_num d (mkD (2 ^ 63 - 1) 0)).
  { apply decimal_le; [apply bits_int; reflexivity|]. cbn [num den]. change (pow2 0) with 1. lia. }
  unfold le_num in L. cbn [num den] in L. change (pow2 0) with 1 in L. rewrite Z.mul_1_r in L.
  pose proof (pow2_pos (den d)) as P.
  destruct (whole_dec d) as [[z W]|W].
  - destruct (number_int d z W) as (v & E & _); [|eauto]. unfold is_whole in W. fold (pow2 (den d)) in W.
    unfold in_int64. split; [|].
    + assert (0 <= z) by nia. lia.
    + assert (z <= 2 ^ 63 - 1) by (apply (Z.mul_le_mono_pos_r _ _ (pow2 (den d)) P); lia). lia.
  - apply frac_total; [|eapply Z.le_lt_trans; [exact L|apply Z.mul_lt_mono_pos_r; [exact P|reflexivity]]|exact W].
    destruct (Z.eq_dec (num d) 0) as [E0|E0]; [|lia]. exfalso. apply W. exists 0. unfold is_whole. lia.
Qed.

(* Plain fractions keep their value. *)
Lemma representable_same : forall f d x, same_num d x -> representable f d -> representable f x.
Proof.
  unfold same_num. intros f d x E (n & q & Hn & Hq & He & Hb).
  fold (pow2 (den d)) in *. pose proof (pow2_pos (den d)) as Pd. pose proof (pow2_pos (den x)) as Px.
  exists n, q. split; [exact Hn|]. split; [exact Hq|]. fold (pow2 (den x)). split.
  - apply (Z.mul_reg_r _ _ (pow2 (den d))); [lia|].
    replace (num x * 2 ^ Z.max 0 (- q) * pow2 (den d)) with (num x * pow2 (den d) * 2 ^ Z.max 0 (- q)) by ring.
    rewrite <- E.
    replace (num d * pow2 (den x) * 2 ^ Z.max 0 (- q)) with (num d * 2 ^ Z.max 0 (- q) * pow2 (den x)) by ring.
    rewrite He. ring.
  - apply (Z.mul_lt_mono_pos_r (pow2 (den d))); [exact Pd|].
    rewrite <- (abs_scale _ (pow2 (den d))) by lia. rewrite <- E. rewrite abs_scale by lia.
    apply (Z.mul_lt_mono_pos_r (pow2 (den x))) in Hb; [|exact Px].
    lia.
Qed.

Lemma same_sym : forall a b, same_num a b -> same_num b a.
Proof. unfold same_num. intros. lia. Qed.

Lemma whole_same : forall d x, same_num d x -> whole d -> whole x.
Proof.
  unfold same_num, whole, is_whole. intros d x E (z & W). exists z. fold (pow2 (den d)) in W. fold (pow2 (den x)).
  pose proof (pow2_pos (den d)) as Pd. rewrite W in E. apply (Z.mul_reg_r _ _ (pow2 (den d))); lia.
Qed.

Lemma bits_of_representable : forall d, representable float32 d -> bits 512 d.
Proof.
  intros d (n & q & Hn & _ & He & _). exists n, q. split; [|exact He].
  eapply Z.lt_trans; [exact Hn|reflexivity].
Qed.

Lemma plain_native : forall d x, plain_fraction d -> same_num d x ->
  cty_number_to_native x = Ok (NF32 x).
Proof.
  intros d x (Hp & W & R & _) E.
  pose proof (representable_same _ _ _ E R) as Rx.
  assert (Wx : ~ whole x) by (intros C; apply W; exact (whole_same _ _ (same_sym _ _ E) C)).
  assert (Hx : 0 < num x).
  { unfold same_num in E. pose proof (pow2_pos (den d)). pose proof (pow2_pos (den x)).
    assert (0 < num d * pow2 (den x)) by (apply Z.mul_pos_pos; lia). nia. }
  destruct (number_frac x Hx Wx (rep32_64 x Rx)) as (r & Er & _ & En).
  rewrite (round_to_exact float32 x good32 Rx) in Er. injection Er as <-.
  rewrite Z.leb_refl in En. exact En.
Qed.

Lemma nearest_same : forall f y d, nearest f y d -> representable f d -> same_num y d.
Proof.
  intros f y d N R. specialize (N d R). rewrite Z.sub_diag in N. cbn [Z.abs] in N. rewrite Z.mul_0_l in N.
  pose proof (pow2_pos (den d)) as P. unfold same_num. nia.
Qed.

Lemma same_trans : forall a b c, same_num a b -> same_num b c -> same_num a c.
Proof.
  unfold same_num. intros a b c H1 H2. pose proof (pow2_pos (den b)) as P.
  apply (Z.mul_reg_r _ _ (pow2 (den b))); [lia|].
  replace (num a * pow2 (den c) * pow2 (den b)) with (num a * pow2 (den b) * pow2 (den c)) by ring. rewrite H1.
  replace (num b * pow2 (den a) * pow2 (den c)) with (num b * pow2 (den c) * pow2 (den a)) by ring. rewrite H2. ring.
Qed.

Lemma plain_literal : forall d x v, plain_fraction d -> same_num d x -> literal_native x v ->
  exists z, v = NF32 z /\ same_num d z.
Proof.
  intros d x v (Hp & W & R & _) E L.
  pose proof (representable_same _ _ _ E R) as Rx.
  assert (Wx : ~ whole x) by (intros C; apply W; exact (whole_same _ _ (same_sym _ _ E) C)).
  destruct L as [z v Wz|n y z _ _ _ _ _ Ny Ry Nz Rz|n y _ _ Nn Rn Ln|_ O].
  - exfalso. apply Wx. exists z. exact Wz.
  - exists z. split; [reflexivity|].
    pose proof (nearest_same _ _ _ Ny (rep32_64 x Rx)) as S1.
    pose proof (representable_same _ _ _ (same_sym _ _ S1) Rx) as R32.
    pose proof (nearest_same _ _ _ Nz R32) as S2.
    apply (same_trans d x); [exact E|]. apply (same_trans x y); apply same_sym; assumption.
  - exfalso. pose proof (nearest_same _ _ _ Nn Rx) as S1. unfold same_num in S1. unfold lt_num in Ln. lia.
  - exfalso. fold over32 in O. apply round32_over in O. rewrite (round_to_exact float32 x good32 Rx) in O. discriminate.
Qed.

(* The six decimals of a plain fraction. *)
Lemma plain_million : forall d, plain_fraction d -> exists m, num d * 1000000 = m * pow2 (den d)
  /\ 0 < m <= (2 ^ 63 - 1) * 10 ^ Z.of_nat 6.
Proof.
  intros d (Hp & W & R & n & E). exists (n * 15625). pose proof (pow2_pos (den d)) as P.
  split; [lia|].
  pose proof (frac_small d (rep32_64 d R) W) as L. rewrite Z.abs_eq in L by lia.
  change (10 ^ Z.of_nat 6) with 1000000.
  assert (0 < n) by nia.
  assert (n < 2 ^ 59).
  { apply (Z.mul_lt_mono_pos_r (pow2 (den d))); [exact P|]. rewrite <- E. change (2 ^ 59) with (64 * 2 ^ 53). lia. }
  lia.
Qed.
