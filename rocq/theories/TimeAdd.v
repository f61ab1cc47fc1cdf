(* Lemmas about timeadd. *)

From Verif Require Import Base CtyModel FuncModel TimeModel TimeSpec TimeProofs.
From Coq Require Import NArith ZArith Lia.
Local Open Scope Z_scope.

(* ----- The date of a day ----- *)

Lemma year_start : forall y, days_since y 1 1 = 365 * y + (y + 3) / 4 - (y + 99) / 100 + (y + 399) / 400.
Proof. intro y. unfold days_since. change (days_before 1) with 0. change (2 <? 1) with false. rewrite Bool.andb_false_r. lia. Qed.
Lemma year_bounds : forall y, 146097 * y - 396 <= 400 * days_since y 1 1 <= 146097 * y + 699.
Proof.
  intro y. rewrite year_start.
  assert (A := Z.div_mod (y + 3) 4 ltac:(lia)). assert (A' := Z.mod_pos_bound (y + 3) 4 ltac:(lia)).
  assert (B := Z.div_mod (y + 99) 100 ltac:(lia)). assert (B' := Z.mod_pos_bound (y + 99) 100 ltac:(lia)).
  assert (C := Z.div_mod (y + 399) 400 ltac:(lia)). assert (C' := Z.mod_pos_bound (y + 399) 400 ltac:(lia)). lia.
Qed.
Lemma year_of_spec : forall n, days_since (year_of n) 1 1 <= n < days_since (year_of n + 1) 1 1.
Proof.
  intro n. unfold year_of. set (q := n * 400 / 146097).
  assert (A := Z.div_mod (n * 400) 146097 ltac:(lia)). assert (A' := Z.mod_pos_bound (n * 400) 146097 ltac:(lia)). fold q in A.
  assert (B := year_bounds (q - 1)). assert (C := year_bounds (q + 1 + 1)).
  destruct (Z.ltb_spec n (days_since q 1 1)); [replace (q - 1 + 1) with q by lia; lia|].
  destruct (Z.leb_spec (days_since (q + 1) 1 1) n); lia.
Qed.
Lemma next_year : forall y, days_since (y + 1) 1 1 = days_since y 12 1 + 31.
Proof.
  intro y. assert (H := next_number _ _ (nd_year y)). unfold number in H. cbn [year month day] in H. rewrite H. unfold days_since. lia.
Qed.
Lemma next_month : forall y m, 1 <= m < 12 -> days_since y (m + 1) 1 = days_since y m 1 + days_in m y.
Proof.
  intros y m R. assert (L : month_length y m (days_in m y)) by (apply month_length_iff; split; [lia|reflexivity]).
  assert (H := next_number _ _ (nd_month y m (days_in m y) L ltac:(lia))). unfold number in H. cbn [year month day] in H. rewrite H. unfold days_since. lia.
Qed.
Lemma month_of_spec : forall k y n, days_since y 1 1 <= n -> 1 <= month_of k y n <= Z.of_nat k + 1 /\ days_since y (month_of k y n) 1 <= n /\
  (month_of k y n = Z.of_nat k + 1 \/ n < days_since y (month_of k y n + 1) 1).
Proof.
  induction k as [|k IH]; intros y n H; cbn [month_of]; [change (Z.of_nat 0 + 1) with 1; repeat split; try lia|].
  destruct (Z.leb_spec (days_since y (Z.of_nat (S k) + 1) 1) n) as [L|L]; [repeat split; lia|].
  destruct (IH y n H) as (A & B & C). split; [lia|]. split; [exact B|]. right. destruct C as [C|C]; [|exact C].
  rewrite C. replace (Z.of_nat k + 1 + 1) with (Z.of_nat (S k) + 1) by lia. exact L.
Qed.
Lemma civil_spec : forall n, let y := year_of n in let m := month_of 11 y n in let d := n - days_since y m 1 + 1 in
  is_date (Date y m d) /\ number (Date y m d) = n.
Proof.
  intros n y m d. assert (Y := year_of_spec n). fold y in Y. rewrite next_year in Y.
  split; [|unfold number; cbn [year month day]; unfold d, days_since; lia].
  destruct (month_of_spec 11 y n ltac:(lia)) as (A & B & C). fold m in A, B, C. change (Z.of_nat 11 + 1) with 12 in *.
  assert (G : n < days_since y m 1 + days_in m y).
  { destruct (Z.eq_dec m 12) as [E|N]; [rewrite E; change (days_in 12 y) with 31; lia|].
    rewrite <- next_month by lia. destruct C; [lia|assumption]. }
  exists (days_in m y). cbn [year month day]. split; [apply month_length_iff; split; [lia|reflexivity]|unfold d; lia].
Qed.

(* ----- Numbers ----- *)

Definition upto (k : nat) : list Z := map Z.of_nat (seq 0 k).
Lemma upto_In : forall k n, 0 <= n < Z.of_nat k -> In n (upto k).
Proof. intros k n H. unfold upto. apply in_map_iff. exists (Z.to_nat n). split; [lia|]. apply in_seq. lia. Qed.
Lemma append_two : forall n, 0 <= n <= 99 -> append_int 2 n = two_digits n.
Proof.
  intros n H. assert (A : forallb (fun n => String.eqb (append_int 2 n) (two_digits n)) (upto 100) = true) by (vm_compute; reflexivity).
  rewrite forallb_forall in A. apply String.eqb_eq. apply A. apply upto_In. lia.
Qed.
Lemma append_four : forall n, 0 <= n <= 9999 -> append_int 4 n = four_digits n.
Proof.
  intros n H. assert (A : forallb (fun n => String.eqb (append_int 4 n) (four_digits n)) (upto (100 * 100)) = true) by (vm_compute; reflexivity).
  rewrite forallb_forall in A. apply String.eqb_eq. apply A. apply upto_In. lia.
Qed.

(* ----- Format ----- *)

Lemma zone_written : forall z, -1439 <= z <= 1439 -> zone_text z
  (if 60 * z =? 0 then "Z" else let y := Z.quot (60 * z) 60 in
   (if y <? 0 then "-" else "+") +++ append_int 2 (Z.abs y / 60) +++ ":" +++ append_int 2 (Z.abs y mod 60)).
Proof.
  intros z B. destruct (Z.eqb_spec (60 * z) 0); [replace z with 0 by lia; constructor|].
  rewrite Z.mul_comm, Z.quot_mul by lia. cbv zeta.
  assert (A := Z.div_mod (Z.abs z) 60 ltac:(lia)). assert (A' := Z.mod_pos_bound (Z.abs z) 60 ltac:(lia)).
  rewrite !append_two by lia. destruct (Z.ltb_spec z 0).
  - assert (X := zt_west (Z.abs z / 60) (Z.abs z mod 60) ltac:(lia) ltac:(lia)). replace (- (60 * (Z.abs z / 60) + Z.abs z mod 60)) with z in X by lia. exact X.
  - assert (X := zt_east (Z.abs z / 60) (Z.abs z mod 60) ltac:(lia) ltac:(lia)). replace (60 * (Z.abs z / 60) + Z.abs z mod 60) with z in X by lia. exact X.
Qed.
Lemma format_spec : forall local t z, offset_at local t = 60 * z -> -1439 <= z <= 1439 ->
  0 <= year_of ((t_sec t + 60 * z) / 86400) <= 9999 ->
  exists a secs, timestamp a secs [] z (format_rfc3339 local t) /\ 86400 * number a + secs = t_sec t + 60 * z.
Proof.
  intros local t z O B Y. unfold format_rfc3339. rewrite O. set (s := t_sec t + 60 * z) in *. set (n := s / 86400) in *. set (r := s mod 86400).
  cbv zeta. destruct (civil_spec n) as [D N]. cbv zeta in D, N. set (y := year_of n) in *. set (m := month_of 11 y n) in *. set (d := n - days_since y m 1 + 1) in *.
  assert (Es := Z.div_mod s 86400 ltac:(lia)). assert (Rs := Z.mod_pos_bound s 86400 ltac:(lia)). fold n r in Es, Rs.
  assert (Er := Z.div_mod r 60 ltac:(lia)). assert (Rr := Z.mod_pos_bound r 60 ltac:(lia)).
  assert (Em := Z.div_mod (r / 60) 60 ltac:(lia)). assert (Rm := Z.mod_pos_bound (r / 60) 60 ltac:(lia)).
  assert (Eh : r / 3600 = r / 60 / 60) by (rewrite Z.div_div by lia; reflexivity).
  assert (Hh : 0 <= r / 3600 <= 23) by lia.
  destruct D as (k & L & D). cbn [year month day] in L, D. assert (Lk := length_pos _ _ _ L). assert (Mm := proj1 (proj1 (month_length_iff _ _ _) L)).
  exists (Date y m d), (3600 * (r / 3600) + 60 * (r / 60 mod 60) + r mod 60). split.
  - rewrite append_four by lia. rewrite (append_two m), (append_two d), (append_two (r / 3600)), (append_two (r / 60 mod 60)), (append_two (r mod 60)) by lia.
    apply (timestamp_text (Date y m d) (r / 3600) (r / 60 mod 60) (r mod 60) [] z "" _); cbn [year]; try lia; [|constructor|apply zone_written; exact B].
    exists k. auto.
  - rewrite N. lia.
Qed.

(* ----- Durations ----- *)

Definition stops (s : string) : Prop := match s with "" => True | String c _ => digit c <> None \/ c = "."%char end.

Lemma digit_text_length : forall l s, String.length (digits_text l +++ s) = (List.length l + String.length s)%nat.
Proof. induction l as [|d l IH]; intro s; cbn; [reflexivity|rewrite IH; reflexivity]. Qed.
Lemma value_app : forall l x, fold_left (fun n d => 10 * n + d) l x = x * 10 ^ Z.of_nat (List.length l) + digits_value l.
Proof. exact value_cons. Qed.
Lemma value_ge : forall l x, (forall d, In d l -> is_digit d) -> 0 <= x -> x <= fold_left (fun n d => 10 * n + d) l x.
Proof.
  induction l as [|d l IH]; intros x D X; cbn [fold_left]; [lia|]. assert (Dd := D d (or_introl eq_refl)). unfold is_digit in Dd.
  assert (H := IH (10 * x + d) (fun e I => D e (or_intror I)) ltac:(lia)). lia.
Qed.
Lemma leading_int_text : forall l x s, (forall d, In d l -> is_digit d) -> no_digit_first s -> 0 <= x ->
  fold_left (fun n d => 10 * n + d) l x <= 2 ^ 63 -> leading_int x (digits_text l +++ s) = Some (fold_left (fun n d => 10 * n + d) l x, s).
Proof.
  induction l as [|d l IH]; intros x s D N X B.
  - cbn [digits_text append fold_left]. destruct s as [|c s]; [reflexivity|]. cbn in N |- *. rewrite N. reflexivity.
  - cbn [digits_text append fold_left] in *. assert (Dd := D d (or_introl eq_refl)). unfold is_digit in Dd.
    assert (G := value_ge l (10 * x + d) (fun e I => D e (or_intror I)) ltac:(lia)).
    cbn [leading_int]. rewrite digit_of by exact Dd. replace (x * 10 + d) with (10 * x + d) by lia.
    destruct (Z.ltb_spec (2 ^ 63 / 10) x) as [L|_]; [exfalso; assert (M := Z.div_mod (2 ^ 63) 10 ltac:(lia)); assert (M' := Z.mod_pos_bound (2 ^ 63) 10 ltac:(lia)); lia|].
    destruct (Z.ltb_spec (2 ^ 63) (10 * x + d)); [lia|]. apply IH; [intros e I; apply D; right; exact I|exact N|lia|exact B].
Qed.
Lemma leading_fraction_text : forall l x k s, (forall d, In d l -> is_digit d) -> no_digit_first s -> 0 <= x ->
  fold_left (fun n d => 10 * n + d) l x <= 2 ^ 63 - 1 ->
  leading_fraction false x k (digits_text l +++ s) = (fold_left (fun n d => 10 * n + d) l x, (k + List.length l)%nat, s).
Proof.
  induction l as [|d l IH]; intros x k s D N X B.
  - cbn [digits_text append fold_left List.length]. rewrite Nat.add_0_r. destruct s as [|c s]; [reflexivity|]. cbn in N |- *. rewrite N. reflexivity.
  - cbn [digits_text append fold_left List.length] in *. assert (Dd := D d (or_introl eq_refl)). unfold is_digit in Dd.
    assert (G := value_ge l (10 * x + d) (fun e I => D e (or_intror I)) ltac:(lia)).
    cbn [leading_fraction]. rewrite digit_of by exact Dd. replace (x * 10 + d) with (10 * x + d) by lia.
    destruct (Z.ltb_spec ((2 ^ 63 - 1) / 10) x) as [L|_];
      [exfalso; assert (M := Z.div_mod (2 ^ 63 - 1) 10 ltac:(lia)); assert (M' := Z.mod_pos_bound (2 ^ 63 - 1) 10 ltac:(lia)); lia|].
    destruct (Z.ltb_spec (2 ^ 63) (10 * x + d)); [lia|]. replace (k + S (List.length l))%nat with (S k + List.length l)%nat by lia.
    apply IH; [intros e I; apply D; right; exact I|exact N|lia|exact B].
Qed.
Lemma cut_stop : forall s, stops s -> cut_unit s = ("", s).
Proof. intros [|c s] H; [reflexivity|]. cbn in H |- *. destruct (digit c); [reflexivity|]. destruct H as [H| ->]; [congruence|reflexivity]. Qed.
Lemma cut_unit_text : forall u n s, unit_ns u n -> stops s -> cut_unit (u +++ s) = (u, s).
Proof. intros u n s U S. apply cut_stop in S. destruct U; cbn; rewrite S; reflexivity. Qed.
Lemma unit_lookup : forall u n, unit_ns u n -> lookup u unit_map = Some n.
Proof. intros u n []; reflexivity. Qed.
Lemma unit_found : forall u n, lookup u unit_map = Some n -> unit_ns u n.
Proof.
  intros u n H. unfold unit_map in H. cbn [lookup] in H.
  repeat (destruct (eq_dec _ _) in H; [subst u; injection H as <-; constructor|]). discriminate.
Qed.
Lemma unit_start : forall u n s, unit_ns u n -> no_digit_first (u +++ s) /\ u <> "" /\ (forall r, u +++ s <> String "." r) /\ 0 < n <= 3600 * 1000000000.
Proof. intros u n s []; repeat split; try discriminate; try reflexivity; lia. Qed.


Lemma match_dot : forall (A : Type) (s : string) (x : string -> A) (y : A), (forall r, s <> String "." r) ->
  match s with String "." r => x r | _ => y end = y.
Proof. intros A [|c s] x y H; [reflexivity|]. destruct c as [[][][][][][][][]]; try reflexivity. destruct (H s eq_refl). Qed.
Lemma first_digit : forall l s, (forall d, In d l -> is_digit d) -> l <> [] -> exists c r, digits_text l +++ s = String c r /\ digit c <> None.
Proof.
  intros [|d l] s D N; [destruct (N eq_refl)|]. exists (digit_char d), (digits_text l +++ s). split; [reflexivity|]. rewrite digit_of; [discriminate|]. apply D. left. reflexivity.
Qed.

Lemma amount_step : forall fp, exact_part fp -> forall n s, amount n s -> forall fuel d r, stops r -> 0 <= d -> d + n <= 2 ^ 63 ->
  0 <= n /\ durations fp (S fuel) d (s +++ r) = durations fp fuel (d + n) r.
Proof.
  intros fp E n s A fuel d r R D B. destruct A as [l u n N Dl U|l f u n p N Dl U P].
  - destruct (unit_start u n r U) as (U1 & U2 & U3 & U4). assert (V := value_bound l Dl). set (v := digits_value l) in *.
    rewrite append_assoc. assert (Bn : 0 <= v * n) by nia. split; [exact Bn|].
    destruct (first_digit l (u +++ r) Dl N) as (c & x & Ex & Dc). cbn [durations]. rewrite Ex. rewrite <- Ex.
    assert (Vm : v <= 2 ^ 63) by nia.
    rewrite (leading_int_text l 0 (u +++ r) Dl U1 ltac:(lia) Vm). fold (digits_value l). fold v.
    rewrite (match_dot _ (u +++ r)) by exact U3. rewrite digit_text_length.
    replace (negb (List.length l + String.length (u +++ r) =? String.length (u +++ r))%nat) with true
      by (destruct l; [destruct (N eq_refl)|]; symmetry; apply Bool.negb_true_iff, Nat.eqb_neq; cbn; lia).
    cbn [negb andb]. rewrite (cut_unit_text u n r U R). apply String.eqb_neq in U2. rewrite U2, (unit_lookup _ _ U).
    destruct (Z.ltb_spec (2 ^ 63 / n) v) as [L|_]; [exfalso; assert (X := Z.div_le_lower_bound (2 ^ 63) n v ltac:(lia)); nia|].
    change (0 <? 0) with false. cbn [andb]. rewrite Z.mod_small by lia. destruct (Z.ltb_spec (2 ^ 63) (d + v * n)); [lia|].
    destruct (digit c); [reflexivity|congruence].
  - destruct (unit_start u n r U) as (U1 & U2 & U3 & U4).
    assert (Dl1 : forall d, In d l -> is_digit d) by (intros e I; apply Dl; apply in_or_app; auto).
    assert (Df : forall d, In d f -> is_digit d) by (intros e I; apply Dl; apply in_or_app; auto).
    assert (V := value_bound l Dl1). assert (F := value_bound f Df). set (v := digits_value l) in *. set (w := digits_value f) in *.
    assert (T : 0 < 10 ^ Z.of_nat (List.length f)) by (apply Z.pow_pos_nonneg; lia).
    assert (Pp : 0 < p) by nia. assert (Bn : 0 <= v * n) by nia. assert (Bw : 0 <= w * p) by nia. split; [lia|].
    rewrite !append_assoc.
    set (rest := "." +++ digits_text f +++ u +++ r).
    assert (Fw : w <= 2 ^ 63 - 1) by nia. assert (Vm : v <= 2 ^ 63) by nia.
    assert (X : exists c x, digits_text l +++ rest = String c x /\ (digit c <> None \/ c = "."%char)).
    { destruct l as [|e l]; [exists "."%char; eexists; split; [reflexivity|auto]|].
      destruct (first_digit (e :: l) rest Dl1 ltac:(discriminate)) as (c & x & Ex & Dc). exists c, x. auto. }
    destruct X as (c & x & Ex & Dc). cbn [durations]. rewrite Ex. rewrite <- Ex.
    rewrite (leading_int_text l 0 rest Dl1 eq_refl ltac:(lia) Vm). fold (digits_value l). fold v.
    change rest with (String "." (digits_text f +++ u +++ r)). cbn beta iota. rewrite (leading_fraction_text f 0 0 (u +++ r) Df U1 ltac:(lia) Fw). fold (digits_value f). fold w. rewrite Nat.add_0_l.
    rewrite !digit_text_length.
    change (String "." (digits_text f +++ u +++ r)) with rest.
    replace (negb (negb (List.length l + String.length rest =? String.length rest)%nat) && negb (negb (List.length f + String.length (u +++ r) =? String.length (u +++ r))%nat)) with false.
    2: { destruct l as [|e l]; [destruct f as [|e f]; [destruct (N eq_refl)|]|]; rewrite !Bool.negb_involutive; symmetry; apply Bool.andb_false_iff;
         [right|left]; apply Nat.eqb_neq; cbn; lia. }
    rewrite (cut_unit_text u n r U R). apply String.eqb_neq in U2. rewrite U2, (unit_lookup _ _ U).
    destruct (Z.ltb_spec (2 ^ 63 / n) v) as [L|_]; [exfalso; assert (X := Z.div_le_lower_bound (2 ^ 63) n v ltac:(lia)); nia|].
    assert (Y : (if 0 <? w then v * n + fp w n (List.length f) else v * n) = v * n + w * p).
    { destruct (Z.ltb_spec 0 w); [|nia]. rewrite P at 2. rewrite E; [reflexivity|lia|lia]. }
    rewrite Y. destruct (Z.ltb_spec (2 ^ 63) (v * n + w * p)); [lia|]. rewrite Bool.andb_false_r.
    rewrite Z.mod_small by lia. destruct (Z.ltb_spec (2 ^ 63) (d + (v * n + w * p))); [lia|].
    destruct (digit c); [reflexivity|]. destruct Dc as [Dc| ->]; [congruence|reflexivity].
Qed.
Lemma amount_starts : forall n s r, amount n s -> stops (s +++ r) /\ (2 <= String.length s)%nat.
Proof.
  intros n s r [l u m N D U|l f u m p N D U P].
  - destruct (first_digit l (u +++ r) D N) as (c & x & E & Dc). rewrite append_assoc, E. split; [left; exact Dc|].
    rewrite digit_text_length. destruct l; [destruct (N eq_refl)|]. destruct U; cbn; lia.
  - split.
    + destruct l as [|e l]; [right; reflexivity|]. left. cbn [digits_text append]. rewrite digit_of; [discriminate|]. apply D. left. reflexivity.
    + rewrite digit_text_length. cbn [append String.length]. rewrite digit_text_length. destruct U; cbn; lia.
Qed.
Lemma amounts_parse : forall fp, exact_part fp -> forall n s, amounts n s -> forall fuel d, (String.length s < fuel)%nat -> 0 <= d -> d + n <= 2 ^ 63 ->
  0 <= n /\ durations fp fuel d s = Some (d + n).
Proof.
  intros fp E n s A. induction A as [n s A|n s m t A As IH]; intros fuel d L D B.
  - destruct fuel as [|fuel]; [lia|]. assert (X := amount_step fp E n s A fuel d "" Logic.I D B). rewrite append_nil_r in X. destruct X as [X1 X2].
    split; [exact X1|]. rewrite X2. destruct (amount_starts n s "" A) as [_ L2]. destruct fuel; [lia|reflexivity].
  - assert (S : stops t).
    { destruct As as [m t A2|m t m2 t2 A2 _]; [assert (X := proj1 (amount_starts _ _ "" A2)); rewrite append_nil_r in X; exact X|exact (proj1 (amount_starts _ _ t2 A2))]. }
    destruct (amount_starts n s t A) as [_ L2]. assert (LL : String.length (s +++ t) = (String.length s + String.length t)%nat).
    { clear. induction s; cbn; congruence. }
    destruct fuel as [|fuel]; [lia|].
    assert (M : 0 <= m).
    { clear -E As. assert (G : forall m t, amounts m t -> 0 <= m); [|exact (G m t As)]. clear m t As. intros m t As.
      assert (H : forall n s, amount n s -> 0 <= n).
      { intros n s [l u k N D U|l f u k p N D U P].
        - assert (V := value_bound l D). destruct (unit_start u k "" U) as (_ & _ & _ & U4). nia.
        - assert (V := value_bound l (fun d I => D d (in_or_app _ _ _ (or_introl I)))). assert (F := value_bound f (fun d I => D d (in_or_app _ _ _ (or_intror I)))).
          destruct (unit_start u k "" U) as (_ & _ & _ & U4). assert (T : 0 < 10 ^ Z.of_nat (List.length f)) by (apply Z.pow_pos_nonneg; lia). assert (0 < p) by nia. nia. }
      induction As as [n s A|n s m t A As IH]; [exact (H _ _ A)|]. assert (X := H _ _ A). lia. }
    destruct (amount_step fp E n s A fuel d t S D ltac:(lia)) as [X1 X2]. destruct (IH fuel (d + n) ltac:(lia) ltac:(lia) ltac:(lia)) as [X3 X4].
    split; [lia|]. rewrite X2, X4. f_equal. lia.
Qed.
Lemma magnitude_parse : forall fp, exact_part fp -> forall n s, magnitude n s -> n <= 2 ^ 63 -> 0 <= n /\ unsigned_duration fp s = Some n.
Proof.
  intros fp E n s [|m t A] B; [split; [lia|reflexivity]|].
  destruct (amounts_parse fp E m t A (S (String.length t)) 0 ltac:(lia) ltac:(lia) B) as [X Y]. split; [exact X|].
  assert (L : (2 <= String.length t)%nat).
  { destruct A as [k t A|k t k2 t2 A _]; [exact (proj2 (amount_starts _ _ "" A))|]. assert (L := proj2 (amount_starts _ _ "" A)).
    assert (LL : String.length (t +++ t2) = (String.length t + String.length t2)%nat) by (clear; induction t; cbn; congruence). lia. }
  unfold unsigned_duration. destruct (String.eqb_spec t "0") as [->|_]; [cbn in L; lia|]. destruct (String.eqb_spec t "") as [->|_]; [cbn in L; lia|].
  exact Y.
Qed.
Lemma magnitude_starts : forall n s, magnitude n s -> exists c r, s = String c r /\ c <> "-"%char /\ c <> "+"%char.
Proof.
  assert (G : forall n s r, amount n s -> exists c x, s +++ r = String c x /\ c <> "-"%char /\ c <> "+"%char).
  { intros n s r A. destruct (amount_starts n s r A) as [S L]. destruct s as [|c s]; [cbn in L; lia|]. cbn in S |- *. exists c, (s +++ r). split; [reflexivity|].
    destruct S as [S| ->]; [|split; discriminate]. split; intros ->; apply S; reflexivity. }
  intros n s [|m t [k u A|k u k2 u2 A _]]; [exists "0"%char, ""; repeat split; discriminate| |eapply G; eauto].
  destruct (G k u "" A) as (c & x & Ex & X). rewrite append_nil_r in Ex. eauto.
Qed.
Lemma duration_parse : forall fp, exact_part fp -> forall n s, duration n s -> - 2 ^ 63 <= n < 2 ^ 63 -> parse_duration fp s = Some n.
Proof.
  intros fp E n s D B. destruct D as [m t M|m t M|m t M].
  - destruct (magnitude_parse fp E m t M ltac:(lia)) as [P U]. destruct (magnitude_starts m t M) as (c & r & -> & Nm & Np).
    unfold parse_duration. destruct c as [[][][][][][][][]]; try congruence; rewrite U; destruct (Z.ltb_spec (2 ^ 63 - 1) m); (lia || reflexivity).
  - destruct (magnitude_parse fp E m t M ltac:(lia)) as [P U]. cbn [parse_duration]. rewrite U. destruct (Z.ltb_spec (2 ^ 63 - 1) m); (lia || reflexivity).
  - destruct (magnitude_parse fp E m t M ltac:(lia)) as [P U]. cbn [parse_duration]. rewrite U. reflexivity.
Qed.

Lemma leading_int_inv : forall s x v r, leading_int x s = Some (v, r) -> exists l, (forall d, In d l -> is_digit d) /\ s = digits_text l +++ r.
Proof.
  induction s as [|c s IH]; intros x v r H; cbn [leading_int] in H.
  - injection H as <- <-. exists []. split; [intros d []|reflexivity].
  - destruct (digit c) as [d|] eqn:D; [|injection H as <- <-; exists []; split; [intros d []|reflexivity]].
    destruct (2 ^ 63 / 10 <? x); [discriminate|]. destruct (2 ^ 63 <? x * 10 + d); [discriminate|].
    apply digit_iff in D. destruct D as [D ->]. destruct (IH _ _ _ H) as (l & Dl & ->).
    exists (d :: l). split; [intros e [<-|I]; auto|reflexivity].
Qed.
Lemma leading_fraction_inv : forall s o x k v n r, leading_fraction o x k s = (v, n, r) -> exists l, (forall d, In d l -> is_digit d) /\ s = digits_text l +++ r.
Proof.
  induction s as [|c s IH]; intros o x k v n r H; cbn [leading_fraction] in H.
  - injection H as <- <- <-. exists []. split; [intros d []|reflexivity].
  - destruct (digit c) as [d|] eqn:D; [|injection H as <- <- <-; exists []; split; [intros d []|reflexivity]].
    apply digit_iff in D. destruct D as [D ->].
    assert (X : exists o' x' k', leading_fraction o' x' k' s = (v, n, r)) by (destruct o; [|destruct (_ <? x); [|destruct (2 ^ 63 <? _)]]; eauto).
    destruct X as (o' & x' & k' & X). destruct (IH _ _ _ _ _ _ X) as (l & Dl & ->). exists (d :: l). split; [intros e [<-|I]; auto|reflexivity].
Qed.
Lemma cut_unit_inv : forall s u r, cut_unit s = (u, r) -> s = u +++ r.
Proof.
  induction s as [|c s IH]; intros u r H; cbn [cut_unit] in H; [injection H as <- <-; reflexivity|].
  destruct (digit c); [injection H as <- <-; reflexivity|]. destruct (Ascii.eqb c "."); [injection H as <- <-; reflexivity|].
  destruct (cut_unit s) as [u' r'] eqn:E. injection H as <- <-. cbn. rewrite (IH u' r' eq_refl). reflexivity.
Qed.
Lemma durations_inv : forall fp fuel s d n, durations fp fuel d s = Some n -> s = "" \/ amounts_form s.
Proof.
  intros fp. induction fuel as [|fuel IH]; intros s d n H; [discriminate|]. cbn [durations] in H. destruct s as [|c s']; [left; reflexivity|].
  set (s := String c s') in *.
  assert (X : match leading_int 0 s with Some (v, s1) =>
     (let '(f, k, s2, post) := match s1 with
          | String "." s1' => let '(f, k, s2) := leading_fraction false 0 0 s1' in (f, k, s2, negb (String.length s1' =? String.length s2)%nat)
          | _ => (0, O, s1, false)
          end in
        if negb (negb (String.length s =? String.length s1)%nat) && negb post then None else
        let (u, s3) := cut_unit s2 in
        if String.eqb u "" then None else match lookup u unit_map with Some unit =>
        if 2 ^ 63 / unit <? v then None else
        let v := v * unit in
        let v := if 0 <? f then v + fp f unit k else v in
        if (0 <? f) && (2 ^ 63 <? v) then None else
        let d := (d + v) mod 2 ^ 64 in
        if 2 ^ 63 <? d then None else durations fp fuel d s3 | None => None end) | None => None end = Some n)
    by (destruct (digit c); [exact H|destruct (Ascii.eqb c "."); [exact H|discriminate]]).
  clear H. destruct (leading_int 0 s) as [[v s1]|] eqn:L; [|discriminate]. apply leading_int_inv in L. destruct L as (l & Dl & L).
  assert (E : exists pre u m s3 d', amount_form (pre +++ u) /\ s = (pre +++ u) +++ s3 /\ unit_ns u m /\ durations fp fuel d' s3 = Some n).
  { assert (G : forall f (k : nat) s2 post, (if negb (negb (String.length s =? String.length s1)%nat) && negb post then None else
        let (u, s3) := cut_unit s2 in
        if String.eqb u "" then None else match lookup u unit_map with Some unit =>
        if 2 ^ 63 / unit <? v then None else
        let v := v * unit in
        let v := if 0 <? f then v + fp f unit k else v in
        if (0 <? f) && (2 ^ 63 <? v) then None else
        let d := (d + v) mod 2 ^ 64 in
        if 2 ^ 63 <? d then None else durations fp fuel d s3 | None => None end) = Some n ->
        (l <> [] \/ post = true) /\ exists u m s3 d', s2 = u +++ s3 /\ unit_ns u m /\ durations fp fuel d' s3 = Some n).
    { intros f k s2 post Y. split.
      - destruct l as [|e l]; [right|left; discriminate]. cbn in L. subst s1. rewrite Nat.eqb_refl in Y. destruct post; [reflexivity|discriminate].
      - destruct (_ && negb post) in Y; [discriminate|]. destruct (cut_unit s2) as [u s3] eqn:C. apply cut_unit_inv in C. destruct (String.eqb u ""); [discriminate|].
        destruct (lookup u unit_map) as [m|] eqn:U; [|discriminate]. apply unit_found in U. destruct (_ <? v) in Y; [discriminate|]. cbv zeta in Y.
        destruct (_ && _) in Y; [discriminate|]. destruct (2 ^ 63 <? _) in Y; [discriminate|]. exists u, m, s3. eexists. eauto. }
    assert (Q : (exists s1', s1 = String "." s1') \/ forall r, s1 <> String "." r).
    { destruct s1 as [|x s1]; [right; discriminate|]. destruct (Ascii.eqb_spec x "."%char) as [->|N]; [left; eauto|right; congruence]. }
    destruct Q as [[s1' ->]|Q].
    - cbn beta iota in X. destruct (leading_fraction false 0 0 s1') as [[f k] s2] eqn:F. apply leading_fraction_inv in F. destruct F as (g & Dg & ->).
      apply G in X. destruct X as [P (u & m & s3 & d' & -> & U & Y)].
      exists (digits_text l +++ "." +++ digits_text g), u, m, s3, d'. split; [|split; [|split; [exact U|exact Y]]].
      + rewrite !append_assoc. apply (af_part l g u m); [|intros e I; apply in_app_or in I; destruct I; auto|exact U].
        intro Z. apply app_eq_nil in Z. destruct Z as [-> ->]. destruct P as [P|P]; [congruence|]. cbn in P. rewrite Nat.eqb_refl in P. discriminate.
      + rewrite !append_assoc. exact L.
    - rewrite (match_dot _ s1) in X by exact Q. apply G in X. destruct X as [P (u & m & s3 & d' & -> & U & Y)]. destruct P as [P|P]; [|discriminate].
      exists (digits_text l), u, m, s3, d'. split; [apply (af_whole l u m); assumption|]. split; [rewrite append_assoc; exact L|]. split; assumption. }
  destruct E as (pre & u & m & s3 & d' & A & -> & U & Y). right. destruct (IH _ _ _ Y) as [->|F].
  - rewrite append_nil_r. apply fs_one. exact A.
  - apply fs_more; assumption.
Qed.
Lemma duration_inv : forall fp s n, parse_duration fp s = Some n -> duration_form s.
Proof.
  intros fp.
  assert (G : forall s n, unsigned_duration fp s = Some n -> s = "0" \/ amounts_form s).
  { intros s n H. unfold unsigned_duration in H. destruct (String.eqb_spec s "0"); [auto|]. destruct (String.eqb_spec s ""); [discriminate|].
    apply durations_inv in H. destruct H; [contradiction|auto]. }
  intros s n H.
  assert (X : (exists t, (s = t \/ s = String "+" t \/ s = String "-" t) /\ exists m, unsigned_duration fp t = Some m)).
  { unfold parse_duration in H. destruct s as [|c s]; [discriminate|].
    assert (P : forall t, match unsigned_duration fp t with Some d => if 2 ^ 63 - 1 <? d then None else Some d | None => None end = Some n -> exists m, unsigned_duration fp t = Some m)
      by (intros t Y; destruct (unsigned_duration fp t); [eauto|discriminate]).
    destruct (Ascii.eqb_spec c "-"%char) as [->|Nm]; [exists s; split; [auto|]; destruct (unsigned_duration fp s); [eauto|discriminate]|].
    destruct (Ascii.eqb_spec c "+"%char) as [->|Np]; [exists s; split; [auto|apply P; exact H]|].
    exists (String c s). split; [auto|]. apply P. destruct c as [[][][][][][][][]]; try exact H; congruence. }
  destruct X as (t & E & m & U). exists t. split; [exact (G t m U)|exact E].
Qed.

(* ----- timeadd ----- *)

Lemma starts_grow : forall y y', y <= y' -> days_since y 1 1 <= days_since y' 1 1.
Proof.
  intros y y' L. rewrite !year_start. destruct (Z.eq_dec y y') as [->|N]; [lia|].
  assert (A := Z.div_le_mono (y + 3) (y' + 3) 4 ltac:(lia) ltac:(lia)). assert (C := Z.div_le_mono (y + 399) (y' + 399) 400 ltac:(lia) ltac:(lia)).
  assert (B := Z.div_mod (y + 99) 100 ltac:(lia)). assert (B' := Z.mod_pos_bound (y + 99) 100 ltac:(lia)).
  assert (D := Z.div_mod (y' + 99) 100 ltac:(lia)). assert (D' := Z.mod_pos_bound (y' + 99) 100 ltac:(lia)). lia.
Qed.
Lemma year_range : forall n, 0 <= n < 3652425 -> 0 <= year_of n <= 9999.
Proof.
  intros n B. assert (S := year_of_spec n). set (y := year_of n) in *.
  destruct (Z_le_gt_dec 0 y) as [L|G].
  - destruct (Z_le_gt_dec y 9999); [lia|]. assert (X := starts_grow 10000 y ltac:(lia)). change (days_since 10000 1 1) with 3652425 in X. lia.
  - assert (X := starts_grow (y + 1) 0 ltac:(lia)). change (days_since 0 1 1) with 0 in X. lia.
Qed.
Lemma add_seconds : forall sec n l d, 0 <= n < 1000000000 -> t_sec (time_add (Time sec n l) d) = (1000000000 * sec + n + d) / 1000000000.
Proof.
  intros sec n l d B. unfold time_add. cbn [t_sec t_nsec]. f_equal. lia.
Qed.
(* The offset with which the result is written. *)
Definition result_zone (local : Z -> Z) (sec sec' z : Z) (z' : Z) : Prop := z' = z \/ (local sec = 60 * z /\ local sec' = 60 * z').
Lemma locate_zone : forall local sec o z n d, zone_offset o = 60 * z -> 0 <= n < 1000000000 ->
  let t := time_add (Time sec n (locate local sec o)) d in
  (local sec = 60 * z -> exists z', local (t_sec t) = 60 * z' /\ -1439 <= z' <= 1439) -> -1439 <= z <= 1439 ->
  exists z', offset_at local t = 60 * z' /\ -1439 <= z' <= 1439 /\ result_zone local sec (t_sec t) z z'.
Proof.
  intros local sec o z n d O B t L Z. unfold offset_at. change (t_loc t) with (locate local sec o). unfold locate, result_zone. destruct o as [off|]; cbn [zone_offset] in O.
  - subst off. destruct (Z.eqb_spec (local sec) (60 * z)) as [E|N]; [|exists z; auto]. destruct (L E) as (z' & E' & B'). exists z'. auto.
  - exists z. split; [lia|auto].
Qed.
Lemma zone_range : forall a secs f z t, timestamp a secs f z t -> -1439 <= z <= 1439.
Proof. intros a secs f z t [a0 h m s f0 z0 ft zt D Y H M S F Z]. destruct Z; lia. Qed.
Lemma add_says : forall local fp a secs f z t n b d, exact_part fp -> timestamp a secs f z t -> day_number a n -> duration d b ->
  - 2 ^ 63 <= d < 2 ^ 63 -> let ns := 1000000000 * (86400 * n + secs - 60 * z) + billionths f in
  86400000000000 <= ns + d < 86400000000000 * 3652424 ->
  (local (ns / 1000000000) = 60 * z -> exists z', local ((ns + d) / 1000000000) = 60 * z' /\ -1439 <= z' <= 1439) ->
  exists sec k o dn, parse_rfc3339 t = Some (sec, k, o) /\ parse_duration fp b = Some dn /\
    exists a' secs' z' n', timestamp a' secs' [] z' (format_rfc3339 local (time_add (Time sec k (locate local sec o)) dn)) /\ day_number a' n' /\
    86400 * n' + secs' - 60 * z' = (ns + d) / 1000000000 /\ result_zone local (ns / 1000000000) ((ns + d) / 1000000000) z z'.
Proof.
  intros local fp a secs f z t n b d E T N D B ns R L. apply number_spec in N. destruct N as [_ ->].
  assert (Zr := zone_range _ _ _ _ _ T). destruct (parse_timestamp_text _ _ _ _ _ T) as (o & O & P). assert (F := fraction_bound _ _ _ _ P).
  exists (86400 * number a + secs - 60 * z), (billionths f), o, d. split; [exact P|]. split; [exact (duration_parse fp E d b D B)|].
  set (sec := 86400 * number a + secs - 60 * z) in *.
  assert (A := add_seconds sec (billionths f) (locate local sec o) d F). fold ns in A.
  assert (Q : ns / 1000000000 = sec) by (symmetry; apply Z.div_unique_pos with (billionths f); [lia|reflexivity]).
  rewrite Q in *. destruct (locate_zone local sec o z (billionths f) d O F) as (z' & O' & B' & Z'); [rewrite A; exact L|exact Zr|].
  set (tt := time_add (Time sec (billionths f) (locate local sec o)) d) in *.
  assert (G : 86400 <= (ns + d) / 1000000000 < 86400 * 3652424).
  { split; [apply Z.div_le_lower_bound; lia|apply Z.div_lt_upper_bound; lia]. }
  assert (Y : 0 <= year_of ((t_sec tt + 60 * z') / 86400) <= 9999).
  { apply year_range. rewrite A. split; [apply Z.div_pos; lia|apply Z.div_lt_upper_bound; lia]. }
  destruct (format_spec local tt z' O' B' Y) as (a' & secs' & T' & N'). exists a', secs', z', (number a'). split; [exact T'|]. split; [|split; [lia|rewrite <- A; exact Z']].
  destruct T' as [a0 h m s f0 z0 ft zt D0 Y0]. apply day_number_exists; [exact D0|lia].
Qed.
