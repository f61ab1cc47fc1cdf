(* Lemmas about timestamps. *)

From Verif Require Import Base CtyModel FuncModel TimeModel TimeSpec.
From Coq Require Import NArith ZArith Lia.
Local Open Scope Z_scope.

(* ----- The calendar ----- *)

Lemma mod_divide : forall k y, 0 < k -> (y mod k =? 0) = true <-> (k | y).
Proof. intros k y K. rewrite Z.eqb_eq. apply Z.mod_divide. lia. Qed.
Lemma leap_iff : forall y, is_leap y = true <-> leap y.
Proof.
  intro y. unfold is_leap, leap. rewrite Bool.andb_true_iff, Bool.orb_true_iff, Bool.negb_true_iff, !mod_divide by lia.
  rewrite <- Bool.not_true_iff_false, mod_divide by lia. split; intros [A B]; split; auto.
  - intro D. destruct B; tauto.
  - destruct (y mod 100 =? 0) eqn:E; [apply mod_divide in E; [auto|lia]|]. left. intro D. apply mod_divide in D; [congruence|lia].
Qed.
Lemma months : forall m, 1 <= m <= 12 -> m = 1 \/ m = 2 \/ m = 3 \/ m = 4 \/ m = 5 \/ m = 6 \/ m = 7 \/ m = 8 \/ m = 9 \/ m = 10 \/ m = 11 \/ m = 12.
Proof. intros. lia. Qed.
Lemma month_length_iff : forall y m n, month_length y m n <-> 1 <= m <= 12 /\ n = days_in m y.
Proof.
  intros y m n. split.
  - intros [y0 m0 I|y0 m0 I|y0 L|y0 L].
    + cbn in I. intuition (subst; cbn; try lia; reflexivity).
    + cbn in I. intuition (subst; cbn; try lia; reflexivity).
    + apply leap_iff in L. cbn. rewrite L. lia.
    + split; [lia|]. cbn. destruct (is_leap y0) eqn:E; [apply leap_iff in E; tauto|reflexivity].
  - intros [R ->]. destruct (months m R) as [H|[H|[H|[H|[H|[H|[H|[H|[H|[H|[H|H]]]]]]]]]]]; subst m; cbn;
      try (apply ml_long; cbn; tauto); try (apply ml_short; cbn; tauto).
    destruct (is_leap y) eqn:E; [apply ml_leap|apply ml_feb]; [apply leap_iff; exact E|]. rewrite <- leap_iff. congruence.
Qed.

Lemma step_div : forall k y, 0 < k -> (y + k) / k = (y + (k - 1)) / k + (if y mod k =? 0 then 1 else 0).
Proof.
  intros k y K. assert (D := Z.div_mod y k ltac:(lia)). assert (B := Z.mod_pos_bound y k K).
  set (q := y / k) in *. set (r := y mod k) in *.
  replace (y + k) with (r + (q + 1) * k) by lia. rewrite Z.div_add, (Z.div_small r) by lia.
  destruct (Z.eqb_spec r 0) as [Z0|N0].
  - replace (y + (k - 1)) with ((k - 1) + q * k) by lia. rewrite Z.div_add, (Z.div_small (k - 1)) by lia. lia.
  - replace (y + (k - 1)) with ((r - 1) + (q + 1) * k) by lia. rewrite Z.div_add, (Z.div_small (r - 1)) by lia. lia.
Qed.
Lemma leap_parts : forall y, (if is_leap y then 1 else 0) =
  (if y mod 4 =? 0 then 1 else 0) - (if y mod 100 =? 0 then 1 else 0) + (if y mod 400 =? 0 then 1 else 0).
Proof.
  intro y. unfold is_leap. destruct (y mod 4 =? 0) eqn:A, (y mod 100 =? 0) eqn:B, (y mod 400 =? 0) eqn:C; try reflexivity; exfalso.
  all: try (apply mod_divide in C; [|lia]); try (apply mod_divide in B; [|lia]).
  all: try (assert (X : (4 | y)) by (apply Z.divide_trans with 100; [exists 25; reflexivity|exact B]); apply mod_divide in X; [congruence|lia]).
  all: try (assert (X : (4 | y)) by (apply Z.divide_trans with 400; [exists 100; reflexivity|exact C]); apply mod_divide in X; [congruence|lia]).
  all: try (assert (X : (100 | y)) by (apply Z.divide_trans with 400; [exists 4; reflexivity|exact C]); apply mod_divide in X; [congruence|lia]).
Qed.
Definition number (a : date) : Z := days_since (year a) (month a) (day a).
Lemma next_number : forall a b, next_day a b -> number b = number a + 1.
Proof.
  intros a b [y m d n L R|y m d L R|y]; unfold number, days_since; cbn [year month day].
  - lia.
  - apply month_length_iff in L. destruct L as [B ->]. generalize (365 * y + (y + 3) / 4 - (y + 99) / 100 + (y + 399) / 400). intro Y.
    destruct (months m B) as [H|[H|[H|[H|[H|[H|[H|[H|[H|[H|[H|H]]]]]]]]]]]; subst m; try lia;
      repeat match goal with |- context [days_before ?k] => let v := eval vm_compute in (days_before k) in change (days_before k) with v end;
      repeat match goal with |- context [2 <? ?k] => let v := eval vm_compute in (2 <? k) in change (2 <? k) with v end;
      unfold days_in; destruct (is_leap y);
      cbv [andb orb Z.eqb Z.ltb Z.compare Pos.eqb Pos.compare Pos.compare_cont]; lia.
  - assert (P := leap_parts y). assert (A := step_div 4 y ltac:(lia)). assert (B := step_div 100 y ltac:(lia)). assert (C := step_div 400 y ltac:(lia)).
    cbn [Z.sub Z.add Z.opp Z.pos_sub Pos.pred_double Pos.succ] in A, B, C.
    replace (y + 1 + 3) with (y + 4) by lia. replace (y + 1 + 99) with (y + 100) by lia. replace (y + 1 + 399) with (y + 400) by lia.
    rewrite A, B, C. change (days_before 12) with 334. change (days_before 1) with 0. change (2 <? 12) with true. change (2 <? 1) with false.
    rewrite !Bool.andb_true_r, !Bool.andb_false_r, P. change (4 - 1) with 3. change (100 - 1) with 99. change (400 - 1) with 399. lia.
Qed.
Lemma length_pos : forall y m n, month_length y m n -> 28 <= n <= 31.
Proof. intros y m n [| | |]; lia. Qed.
Lemma next_is_date : forall a b, is_date a -> next_day a b -> is_date b.
Proof.
  intros a b (n & L & D) N. destruct N as [y m d k L' R|y m d L' R|y]; unfold is_date; cbn [year month day] in *.
  - exists k. split; [exact L'|lia].
  - apply month_length_iff in L'. destruct L' as [B _]. exists (days_in (m + 1) y).
    assert (X : month_length y (m + 1) (days_in (m + 1) y)) by (apply month_length_iff; lia).
    split; [exact X|]. apply length_pos in X. lia.
  - exists 31. split; [apply ml_long; cbn; tauto|lia].
Qed.
Lemma number_spec : forall a n, day_number a n -> is_date a /\ n = number a.
Proof.
  intros a n H. induction H as [|a b n H [D ->] N].
  - split; [|reflexivity]. exists 31. split; [apply ml_long; cbn; tauto|cbn; lia].
  - split; [eapply next_is_date; eauto|]. symmetry. apply next_number. exact N.
Qed.
Lemma reach_day : forall d y m n, month_length y m n -> 0 <= d < n -> forall k, day_number (Date y m 1) k -> exists k', day_number (Date y m (1 + d)) k'.
Proof.
  intros d y m n L R k K. assert (H : 0 <= d) by lia. revert R. pattern d. apply natlike_ind; [| |exact H]; clear d H.
  - intros _. exists k. exact K.
  - intros d P IH R. destruct IH as [k' K']; [lia|]. exists (k' + 1). replace (1 + Z.succ d) with (1 + d + 1) by lia.
    eapply dn_next; [exact K'|]. eapply nd_day; [exact L|lia].
Qed.
Lemma reach_month : forall m y k, 0 <= m <= 11 -> day_number (Date y 1 1) k -> exists k', day_number (Date y (1 + m) 1) k'.
Proof.
  intros m y k R K. assert (H : 0 <= m) by lia. revert R. pattern m. apply natlike_ind; [| |exact H]; clear m H.
  - intros _. exists k. exact K.
  - intros m P IH R. destruct IH as [k' K']; [lia|].
    assert (L : month_length y (1 + m) (days_in (1 + m) y)) by (apply month_length_iff; lia). assert (B := length_pos _ _ _ L).
    destruct (reach_day (days_in (1 + m) y - 1) y (1 + m) _ L ltac:(lia) k' K') as [k2 K2].
    exists (k2 + 1). replace (1 + Z.succ m) with (1 + m + 1) by lia. eapply dn_next; [exact K2|].
    replace (1 + (days_in (1 + m) y - 1)) with (days_in (1 + m) y) by lia. apply nd_month; [exact L|lia].
Qed.
Lemma reach_year : forall y, 0 <= y -> exists k, day_number (Date y 1 1) k.
Proof.
  apply natlike_ind; [exists 0; constructor|]. intros y P [k K]. destruct (reach_month 11 y k ltac:(lia) K) as [k' K'].
  assert (L : month_length y 12 31) by (apply ml_long; cbn; tauto).
  destruct (reach_day 30 y 12 31 L ltac:(lia) k' K') as [k2 K2]. exists (k2 + 1). unfold Z.succ. eapply dn_next; [exact K2|]. apply nd_year.
Qed.
Lemma day_number_exists : forall a, is_date a -> 0 <= year a -> day_number a (number a).
Proof.
  intros [y m d] (n & L & D) Y. cbn [year month day] in *. assert (B := L). apply month_length_iff in B.
  destruct (reach_year y Y) as [k K]. destruct (reach_month (m - 1) y k ltac:(lia) K) as [k2 K2].
  replace (1 + (m - 1)) with m in K2 by lia. destruct (reach_day (d - 1) y m n L ltac:(lia) k2 K2) as [k3 K3].
  replace (1 + (d - 1)) with d in K3 by lia. destruct (number_spec _ _ K3) as [_ ->]. exact K3.
Qed.

(* ----- Digits ----- *)

Lemma digit_iff : forall c d, digit c = Some d <-> is_digit d /\ c = digit_char d.
Proof.
  intros c d. unfold digit, is_digit, digit_char. split.
  - destruct ((48 <=? Z.of_N (N_of_ascii c)) && (Z.of_N (N_of_ascii c) <=? 57))%bool eqn:E; [|discriminate].
    apply andb_prop in E. destruct E as [A B]. apply Z.leb_le in A, B. intros [= <-]. split; [lia|].
    rewrite <- (ascii_nat_embedding c) at 1. f_equal. unfold nat_of_ascii. lia.
  - intros [R ->]. assert (X : d = 0 \/ d = 1 \/ d = 2 \/ d = 3 \/ d = 4 \/ d = 5 \/ d = 6 \/ d = 7 \/ d = 8 \/ d = 9) by lia.
    intuition (subst; reflexivity).
Qed.
Lemma digit_of : forall d, is_digit d -> digit (digit_char d) = Some d.
Proof. intros d R. apply digit_iff. auto. Qed.
Lemma number_in_two : forall lo hi n s, lo <= n <= hi -> 0 <= n <= 99 -> number_in 2 lo hi (two_digits n +++ s) = Some (n, s).
Proof.
  intros lo hi n s R B. assert (D := Z.div_mod n 10 ltac:(lia)). assert (M := Z.mod_pos_bound n 10 ltac:(lia)).
  unfold number_in, two_digits. cbn [append parse_uint]. rewrite !digit_of by (unfold is_digit; lia).
  replace (10 * (10 * 0 + n / 10) + n mod 10) with n by lia.
  rewrite (proj2 (Z.leb_le _ _)), (proj2 (Z.leb_le _ _)) by lia. reflexivity.
Qed.
Lemma number_in_four : forall n s, 0 <= n <= 9999 -> number_in 4 0 9999 (four_digits n +++ s) = Some (n, s).
Proof.
  intros n s B. unfold number_in, four_digits, two_digits. cbn [append parse_uint].
  assert (D := Z.div_mod n 100 ltac:(lia)). assert (M := Z.mod_pos_bound n 100 ltac:(lia)).
  assert (D1 := Z.div_mod (n / 100) 10 ltac:(lia)). assert (M1 := Z.mod_pos_bound (n / 100) 10 ltac:(lia)).
  assert (D2 := Z.div_mod (n mod 100) 10 ltac:(lia)). assert (M2 := Z.mod_pos_bound (n mod 100) 10 ltac:(lia)).
  rewrite !digit_of by (unfold is_digit; lia).
  match goal with |- context [Some (?e, s)] => replace e with n by lia end.
  rewrite (proj2 (Z.leb_le _ _)), (proj2 (Z.leb_le _ _)) by lia. reflexivity.
Qed.
Lemma two_of : forall a b, is_digit a -> is_digit b -> two_digits (10 * a + b) = String (digit_char a) (String (digit_char b) "").
Proof.
  intros a b A B. unfold is_digit in *. unfold two_digits.
  replace ((10 * a + b) / 10) with a by (apply Z.div_unique with b; lia).
  replace ((10 * a + b) mod 10) with b by (apply Z.mod_unique with a; lia). reflexivity.
Qed.
Lemma number_in_two_inv : forall lo hi n s s', number_in 2 lo hi s = Some (n, s') -> s = two_digits n +++ s' /\ lo <= n <= hi /\ 0 <= n <= 99.
Proof.
  intros lo hi n s s' H. unfold number_in in H. destruct s as [|c [|d s]]; cbn [parse_uint] in H; try discriminate;
    destruct (digit c) as [x|] eqn:X; try discriminate. destruct (digit d) as [y|] eqn:Y; [|discriminate].
  apply digit_iff in X, Y. destruct X as [X ->], Y as [Y ->]. unfold is_digit in *.
  destruct ((lo <=? _) && (_ <=? hi))%bool eqn:E; [|discriminate]. apply andb_prop in E. destruct E as [A B]. apply Z.leb_le in A, B.
  assert (En : n = 10 * x + y) by (transitivity (10 * (10 * 0 + x) + y); [congruence|lia]). assert (s = s') by congruence. subst n s'. rewrite two_of by (unfold is_digit; lia).
  split; [reflexivity|lia].
Qed.
Lemma number_in_four_inv : forall n s s', number_in 4 0 9999 s = Some (n, s') -> s = four_digits n +++ s' /\ 0 <= n <= 9999.
Proof.
  intros n s s' H. unfold number_in in H. destruct s as [|c [|d [|e [|f s]]]]; cbn [parse_uint] in H; try discriminate;
    repeat match type of H with context [digit ?c] => let X := fresh in destruct (digit c) eqn:X; [apply digit_iff in X; destruct X as [? ->]|]; try discriminate end.
  destruct ((0 <=? _) && (_ <=? 9999))%bool eqn:E; [|discriminate].
  unfold is_digit in *. rename z into w, z0 into x, z1 into y, z2 into v.
  assert (En : 10 * (10 * (10 * (10 * 0 + w) + x) + y) + v = n) by congruence. assert (s = s') by congruence. subst s'.
  assert (En' : n = 100 * (10 * w + x) + (10 * y + v)) by lia. clear En H E. subst n.
  unfold four_digits. replace ((100 * (10 * w + x) + (10 * y + v)) / 100) with (10 * w + x) by (apply Z.div_unique with (10 * y + v); lia).
  replace ((100 * (10 * w + x) + (10 * y + v)) mod 100) with (10 * y + v) by (apply Z.mod_unique with (10 * w + x); lia).
  rewrite !two_of by (unfold is_digit; lia). split; [reflexivity|lia].
Qed.
Lemma skip_char_inv : forall c s s', skip_char c s = Some s' -> s = String c s'.
Proof. intros c [|d s] s' H; cbn in H; [discriminate|]. destruct (Ascii.eqb_spec c d); [|discriminate]. congruence. Qed.
Lemma skip_char_eq : forall c s, skip_char c (String c s) = Some s.
Proof. intros. cbn. rewrite Ascii.eqb_refl. reflexivity. Qed.

(* ----- Fractions and zones ----- *)

Definition no_digit_first (s : string) : Prop := match s with String c _ => digit c = None | "" => True end.
Lemma value_cons : forall l n, fold_left (fun n d => 10 * n + d) l n = n * 10 ^ Z.of_nat (List.length l) + digits_value l.
Proof.
  unfold digits_value. induction l as [|d l IH]; intro n; cbn [fold_left List.length]; [cbn; lia|].
  rewrite (IH (10 * n + d)), (IH (10 * 0 + d)), Nat2Z.inj_succ, Z.pow_succ_r by lia. lia.
Qed.
Lemma value_bound : forall l, (forall d, In d l -> is_digit d) -> 0 <= digits_value l < 10 ^ Z.of_nat (List.length l).
Proof.
  induction l as [|d l IH]; intro H; [cbn; lia|]. assert (B := IH (fun x I => H x (or_intror I))). assert (D := H d (or_introl eq_refl)).
  unfold is_digit in D. unfold digits_value. cbn [fold_left List.length]. rewrite value_cons, Nat2Z.inj_succ, Z.pow_succ_r by lia. nia.
Qed.
Lemma nanoseconds_digits : forall l k scale s, (forall d, In d l -> is_digit d) -> no_digit_first s -> (k = 0%nat \/ scale = 10 ^ (Z.of_nat k - 1)) ->
  nanoseconds k scale (digits_text l +++ s) = digits_value l * 10 ^ Z.of_nat k / 10 ^ Z.of_nat (List.length l).
Proof.
  induction l as [|d l IH]; intros k scale s D N K; [|destruct k as [|k]].
  - change (digits_value []) with 0. rewrite Z.mul_0_l, Z.div_0_l by (cbn; lia). destruct k; [reflexivity|]. destruct s; [reflexivity|].
    cbn in N |- *. rewrite N. reflexivity.
  - cbn [nanoseconds]. rewrite Z.mul_1_r. symmetry. apply Z.div_small. apply value_bound. exact D.
  - destruct K as [K|K]; [discriminate|]. cbn [digits_text append nanoseconds]. rewrite digit_of by (apply D; left; reflexivity).
    rewrite IH; [|intros x I; apply D; right; exact I|exact N|].
    + unfold digits_value at 2. cbn [fold_left List.length]. rewrite value_cons. rewrite !Nat2Z.inj_succ, !Z.pow_succ_r by lia.
      subst scale. rewrite Nat2Z.inj_succ. replace (Z.succ (Z.of_nat k) - 1) with (Z.of_nat k) by lia.
      set (p := 10 ^ Z.of_nat k). set (q := 10 ^ Z.of_nat (List.length l)). assert (Q : 0 < q) by (apply Z.pow_pos_nonneg; lia).
      replace (((10 * 0 + d) * q + digits_value l) * (10 * p)) with (10 * ((d * p) * q + digits_value l * p)) by lia.
      rewrite Z.div_mul_cancel_l by lia. rewrite (Z.add_comm (d * p * q)), Z.div_add by lia. lia.
    + destruct k as [|k]; [left; reflexivity|right]. subst scale.
      replace (Z.of_nat (S (S k)) - 1) with (Z.succ (Z.of_nat k)) by lia. replace (Z.of_nat (S k) - 1) with (Z.of_nat k) by lia.
      rewrite Z.pow_succ_r, Z.mul_comm, Z.div_mul by lia. reflexivity.
Qed.
Lemma skip_digits_text : forall l s, (forall d, In d l -> is_digit d) -> no_digit_first s -> skip_digits (digits_text l +++ s) = s.
Proof.
  induction l as [|d l IH]; intros s D N; cbn [digits_text append skip_digits].
  - destruct s; [reflexivity|]. cbn in N |- *. rewrite N. reflexivity.
  - rewrite digit_of by (apply D; left; reflexivity). apply IH; [intros x I; apply D; right; exact I|exact N].
Qed.
Lemma skip_digits_inv : forall s, exists l, (forall d, In d l -> is_digit d) /\ s = digits_text l +++ skip_digits s /\ no_digit_first (skip_digits s).
Proof.
  induction s as [|c s (l & D & E & N)]; [exists []; split; [intros d []|split; [reflexivity|exact Logic.I]]|]. cbn [skip_digits]. destruct (digit c) as [x|] eqn:X.
  - apply digit_iff in X. destruct X as [X ->]. exists (x :: l). split; [intros d [<-|I]; auto|]. split; [cbn; rewrite <- E; reflexivity|exact N].
  - exists []. split; [intros d []|]. split; [reflexivity|exact X].
Qed.
Definition zone_start (s : string) : Prop := match s with String c _ => c <> "."%char /\ digit c = None | "" => True end.
Lemma zone_text_start : forall z s, zone_text z s -> zone_start s.
Proof. intros z s [| |]; split; (discriminate || reflexivity). Qed.
Lemma parse_fraction_text : forall f ft s, fraction_text f ft -> zone_start s -> parse_fraction (ft +++ s) = (billionths f, s).
Proof.
  intros f ft s [|d l D] Z.
  - change (billionths []) with 0. cbn [append]. destruct s as [|c s]; [reflexivity|]. destruct Z as [Z _]. unfold parse_fraction.
    destruct c as [[][][][][][][][]]; try reflexivity. congruence.
  - assert (N : no_digit_first s) by (destruct s; [exact Logic.I|destruct Z; assumption]).
    cbn [digits_text append]. unfold parse_fraction. rewrite digit_of by (apply D; left; reflexivity).
    change (String (digit_char d) (digits_text l +++ s)) with (digits_text (d :: l) +++ s).
    rewrite nanoseconds_digits; [|exact D|exact N|right; reflexivity].
    rewrite skip_digits_text; [|intros x I; apply D; right; exact I|exact N]. reflexivity.
Qed.
Lemma parse_fraction_inv : forall s ns s', parse_fraction s = (ns, s') -> exists f ft, fraction_text f ft /\ s = ft +++ s' /\ ns = billionths f.
Proof.
  intros s ns s' H.
  assert (P : (ns, s') = (0, s) \/ exists c t x, s = String "." (String c t) /\ digit c = Some x /\ (ns, s') = (nanoseconds 9 100000000 (String c t), skip_digits t)).
  { unfold parse_fraction in H. destruct s as [|c0 s]; [left; congruence|]. destruct c0 as [[][][][][][][][]]; try (left; congruence).
    destruct s as [|c t]; [left; congruence|]. destruct (digit c) as [x|] eqn:X; [|left; congruence]. right. exists c, t, x. auto. }
  destruct P as [[= -> ->]|(c & t & x & -> & X & P)]; [|assert (P1 := f_equal fst P); assert (P2 := f_equal snd P); cbn [fst snd] in P1, P2; subst ns s'].
  - exists [], "". split; [constructor|]. split; reflexivity.
  - apply digit_iff in X. destruct X as [X ->]. destruct (skip_digits_inv t) as (l & D & E & N).
    assert (A : forall d, In d (x :: l) -> is_digit d) by (intros d [<-|I]; auto).
    exists (x :: l), (String "." (digits_text (x :: l))). split; [constructor; exact A|]. split; [cbn; rewrite <- E; reflexivity|].
    rewrite E at 1. change (String (digit_char x) (digits_text l +++ skip_digits t)) with (digits_text (x :: l) +++ skip_digits t).
    rewrite nanoseconds_digits; [reflexivity|exact A|exact N|right; reflexivity].
Qed.
Lemma app_nil_string : forall s, s +++ "" = s.
Proof. induction s as [|c s IH]; cbn; [reflexivity|rewrite IH; reflexivity]. Qed.
Lemma parse_zone_text : forall z s, zone_text z s -> exists o, parse_zone s = Some o /\ zone_offset o = 60 * z.
Proof.
  intros z s [|h m H M|h m H M]; [exists None; split; reflexivity| |]; unfold parse_zone;
    rewrite number_in_two by lia; rewrite skip_char_eq; rewrite <- (app_nil_string (two_digits m)), number_in_two by lia;
    change (Ascii.eqb "-" "+") with false; rewrite Ascii.eqb_refl; cbv iota; eexists; (split; [reflexivity|]); cbn [zone_offset]; lia.
Qed.
Lemma parse_zone_inv : forall s o, parse_zone s = Some o -> exists z, zone_text z s /\ zone_offset o = 60 * z.
Proof.
  intros s off H. destruct s as [|c s]; [discriminate|].
  assert (G : match number_in 2 0 23 s with
    | None => None
    | Some (hr, s1) => match skip_char ":" s1 with
      | None => None
      | Some s2 => match number_in 2 0 59 s2 with
        | Some (mm, "") => if Ascii.eqb c "+" then Some (Some ((hr * 60 + mm) * 60)) else if Ascii.eqb c "-" then Some (Some (- ((hr * 60 + mm) * 60))) else None
        | _ => None end end end = Some off \/ (String c s = "Z" /\ off = None)).
  { unfold parse_zone in H. destruct c as [[][][][][][][][]]; auto. destruct s; auto. right. split; [reflexivity|congruence]. }
  clear H. destruct G as [H|[-> ->]]; [|exists 0; split; [constructor|reflexivity]].
  destruct (number_in 2 0 23 s) as [[hr s1]|] eqn:A; [|discriminate]. apply number_in_two_inv in A. destruct A as (-> & A & _).
  destruct (skip_char ":" s1) as [s2|] eqn:B; [|discriminate]. apply skip_char_inv in B. subst s1.
  destruct (number_in 2 0 59 s2) as [[mm s3]|] eqn:C; [|discriminate]. apply number_in_two_inv in C. destruct C as (-> & C & _).
  destruct s3; [|discriminate]. rewrite app_nil_string.
  destruct (Ascii.eqb_spec c "+") as [->|]; [|destruct (Ascii.eqb_spec c "-") as [->|]; [|discriminate]]; injection H as <-; eexists.
  - split; [apply zt_east; assumption|cbn [zone_offset]; lia].
  - split; [apply zt_west; assumption|cbn [zone_offset]; lia].
Qed.

(* ----- Timestamps ----- *)

Lemma app_assoc_string : forall a b c, (a +++ b) +++ c = a +++ (b +++ c).
Proof. induction a as [|x a IH]; intros b c; cbn; [reflexivity|rewrite IH; reflexivity]. Qed.
Lemma parse_timestamp_text : forall a secs f z t, timestamp a secs f z t ->
  exists o, zone_offset o = 60 * z /\ parse_rfc3339 t = Some (86400 * number a + secs - 60 * z, billionths f, o).
Proof.
  intros a secs f z t [[y mo d] h m s f0 z0 ft zt (n & L & D) Y H M S F Z]. cbn [year month day] in *. apply month_length_iff in L. destruct L as [L ->].
  assert (X : 28 <= days_in mo y <= 31) by (apply length_pos with y mo; apply month_length_iff; auto).
  unfold parse_rfc3339. rewrite number_in_four by lia. cbn [append]. rewrite skip_char_eq, number_in_two, skip_char_eq by lia.
  rewrite number_in_two, skip_char_eq by lia. rewrite number_in_two, skip_char_eq by lia. rewrite number_in_two, skip_char_eq by lia.
  rewrite number_in_two by lia. rewrite (parse_fraction_text _ _ _ F) by (eapply zone_text_start; eauto). destruct (parse_zone_text _ _ Z) as (o & Zo & Eo). rewrite Zo, Eo.
  exists o. split; [exact Eo|]. unfold number. cbn [year month day]. do 3 f_equal. lia.
Qed.
Lemma parse_timestamp_inv : forall t sec ns o, parse_rfc3339 t = Some (sec, ns, o) -> exists a secs f z,
  timestamp a secs f z t /\ zone_offset o = 60 * z /\ sec = 86400 * number a + secs - 60 * z /\ ns = billionths f.
Proof.
  intros t sec ns o P. unfold parse_rfc3339 in P.
  destruct (number_in 4 0 9999 t) as [[y s]|] eqn:E; [|discriminate]. apply number_in_four_inv in E. destruct E as [-> Y].
  destruct (skip_char "-" s) as [s1|] eqn:E; [|discriminate]. apply skip_char_inv in E. subst s.
  destruct (number_in 2 1 12 s1) as [[m s]|] eqn:E; [|discriminate]. apply number_in_two_inv in E. destruct E as (-> & M & _).
  destruct (skip_char "-" s) as [s1|] eqn:E; [|discriminate]. apply skip_char_inv in E. subst s.
  destruct (number_in 2 1 (days_in m y) s1) as [[d s]|] eqn:E; [|discriminate]. apply number_in_two_inv in E. destruct E as (-> & D & _).
  destruct (skip_char "T" s) as [s1|] eqn:E; [|discriminate]. apply skip_char_inv in E. subst s.
  destruct (number_in 2 0 23 s1) as [[h s]|] eqn:E; [|discriminate]. apply number_in_two_inv in E. destruct E as (-> & H & _).
  destruct (skip_char ":" s) as [s1|] eqn:E; [|discriminate]. apply skip_char_inv in E. subst s.
  destruct (number_in 2 0 59 s1) as [[mi s]|] eqn:E; [|discriminate]. apply number_in_two_inv in E. destruct E as (-> & MI & _).
  destruct (skip_char ":" s) as [s1|] eqn:E; [|discriminate]. apply skip_char_inv in E. subst s.
  destruct (number_in 2 0 59 s1) as [[se s]|] eqn:E; [|discriminate]. apply number_in_two_inv in E. destruct E as (-> & SE & _).
  destruct (parse_fraction s) as [n s2] eqn:E. apply parse_fraction_inv in E. destruct E as (f & ft & F & -> & ->).
  destruct (parse_zone s2) as [off|] eqn:E; [|discriminate]. apply parse_zone_inv in E. destruct E as (z & Z & Ez).
  rewrite Ez in P. assert (P1 : sec = 86400 * days_since y m d + 3600 * h + 60 * mi + se - 60 * z) by congruence. assert (P3 : off = o) by congruence. assert (P2 : ns = billionths f) by congruence.
  clear P. subst sec ns. exists (Date y m d), (3600 * h + 60 * mi + se), f, z. subst off. split; [|split; [exact Ez|split; [unfold number; cbn [year month day]; lia|reflexivity]]].
  apply (timestamp_text (Date y m d) h mi se f z ft s2); auto. exists (days_in m y). cbn [year month day]. split; [|exact D].
  apply month_length_iff. auto.
Qed.
Lemma says_iff : forall t ns, says t ns <-> exists sec n o, parse_rfc3339 t = Some (sec, n, o) /\ ns = 1000000000 * sec + n.
Proof.
  intros t ns. split.
  - intros (a & secs & f & z & n & T & N & ->). apply number_spec in N. destruct N as [_ ->]. apply parse_timestamp_text in T. destruct T as (o & _ & T). eauto.
  - intros (sec & n & o & P & ->). apply parse_timestamp_inv in P. destruct P as (a & secs & f & z & T & _ & -> & ->).
    exists a, secs, f, z, (number a). split; [exact T|]. split; [|reflexivity]. destruct T as [a h m s f0 z0 ft zt D Y]. apply day_number_exists; [exact D|lia].
Qed.
Lemma fraction_bound : forall t sec n o, parse_rfc3339 t = Some (sec, n, o) -> 0 <= n < 1000000000.
Proof.
  intros t sec n o P. apply parse_timestamp_inv in P. destruct P as (a & secs & f & z & T & _ & _ & ->). destruct T as [a h m s f z ft zt _ _ _ _ _ F _].
  unfold billionths. destruct F as [|d l D]; [cbn; lia|]. assert (B := value_bound _ D). set (q := 10 ^ Z.of_nat (List.length (d :: l))) in *.
  split; [apply Z.div_pos; lia|]. apply Z.div_lt_upper_bound; lia.
Qed.
