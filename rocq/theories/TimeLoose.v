(* Lemmas about the general parser of timestamps and its complaints. *)

From Verif Require Import Base CtyModel FuncModel TimeModel TimeSpec TimeProofs TimeAdd.
From Coq Require Import NArith ZArith Lia.
Local Open Scope Z_scope.

(* ----- Parts ----- *)

Definition layout_of (p : part) : string :=
  match p with
  | Year => "2006" | Month => "01" | Day => "02" | Hour => "15" | Minute => "04" | Second => "05"
  | Fraction => "" | Offset => "Z07:00" | Mark c => String c ""
  end.
Definition read_part (p : part) (s : string) : (Z * string) + parse_error :=
  match p with
  | Year => element "2006" (parse_uint 4 0 s) 0 9999 "year" s
  | Month => element "01" (getnum true s) 1 12 "month" s
  | Day => element "02" (getnum true s) 0 99 "day" s
  | Hour => element "15" (getnum false s) 0 23 "hour" s
  | Minute => element "04" (getnum true s) 0 59 "minute" s
  | Second => element "05" (getnum true s) 0 59 "second" s
  | Fraction => inl (loose_fraction s)
  | Offset => match loose_zone s with inl (o, r) => inl (zone_offset o / 60, r) | inr e => inr e end
  | Mark c => match separator c s with inl r => inl (0, r) | inr e => inr e end
  end.

Lemma starts_iff : forall r, ~ starts_digit r <-> no_digit_first r.
Proof.
  intros [|c r]; cbn; split; try tauto.
  - intros _ (d & r' & _ & E). discriminate.
  - intro H. destruct (digit c) as [d|] eqn:D; [|reflexivity]. apply digit_iff in D. destruct D as [D ->]. destruct H. exists d, r. auto.
  - intros H (d & r' & D & E). injection E as -> ->. rewrite digit_of in H by exact D. discriminate.
Qed.
Lemma getnum_two : forall fixed n s, 0 <= n <= 99 -> getnum fixed (two_digits n +++ s) = Some (n, s).
Proof.
  intros fixed n s B. assert (D := Z.div_mod n 10 ltac:(lia)). assert (M := Z.mod_pos_bound n 10 ltac:(lia)).
  unfold getnum, two_digits. cbn [append]. rewrite !digit_of by (unfold is_digit; lia). do 2 f_equal. lia.
Qed.
Lemma getnum_short : forall n s, is_digit n -> no_digit_first s -> getnum false (String (digit_char n) s) = Some (n, s).
Proof. intros n s B N. unfold getnum. rewrite digit_of by exact B. destruct s as [|c s]; [reflexivity|]. cbn in N. rewrite N. reflexivity. Qed.
Lemma getnum_inv : forall fixed s n s', getnum fixed s = Some (n, s') ->
  (0 <= n <= 99 /\ s = two_digits n +++ s') \/ (fixed = false /\ is_digit n /\ no_digit_first s' /\ s = String (digit_char n) s').
Proof.
  intros fixed s n s' H. unfold getnum in H. destruct s as [|c s]; [discriminate|]. destruct (digit c) as [a|] eqn:A; [|discriminate].
  apply digit_iff in A. destruct A as [A ->]. destruct s as [|c' s].
  - destruct fixed; [discriminate|]. right. assert (a = n) by congruence. assert (s' = "") by congruence. subst. repeat split; try assumption; unfold is_digit in A; lia.
  - destruct (digit c') as [b|] eqn:B.
    + left. apply digit_iff in B. destruct B as [B ->]. assert (En : n = 10 * a + b) by congruence. assert (s = s') by congruence. subst n s'.
      rewrite two_of by assumption. unfold is_digit in A, B. split; [lia|reflexivity].
    + destruct fixed; [discriminate|]. right. assert (a = n) by congruence. assert (s' = String c' s) by congruence. subst. repeat split; try assumption; unfold is_digit in A; lia.
Qed.
Lemma uint_four : forall n s, 0 <= n <= 9999 -> parse_uint 4 0 (four_digits n +++ s) = Some (n, s).
Proof.
  intros n s B. assert (H := number_in_four n s B). unfold number_in in H. destruct (parse_uint 4 0 (four_digits n +++ s)) as [[k s']|]; [|discriminate].
  destruct (_ && _)%bool in H; [exact H|discriminate].
Qed.
Lemma uint_four_inv : forall n s s', parse_uint 4 0 s = Some (n, s') -> s = four_digits n +++ s' /\ 0 <= n <= 9999.
Proof.
  intros n s s' H. apply number_in_four_inv. unfold number_in. rewrite H.
  assert (B : 0 <= n <= 9999).
  { destruct s as [|c [|d [|e [|f s]]]]; cbn [parse_uint] in H; try discriminate;
      repeat match type of H with context [digit ?c] => let X := fresh in destruct (digit c) eqn:X; [apply digit_iff in X; destruct X as [? _]|]; try discriminate end.
    unfold is_digit in *. assert (E : 10 * (10 * (10 * (10 * 0 + z) + z0) + z1) + z2 = n) by congruence. lia. }
  rewrite (proj2 (Z.leb_le _ _)), (proj2 (Z.leb_le _ _)) by lia. reflexivity.
Qed.
Lemma element_in : forall l n s' lo hi w s, lo <= n <= hi -> element l (Some (n, s')) lo hi w s = inl (n, s').
Proof. intros. unfold element. rewrite (proj2 (Z.leb_le _ _)), (proj2 (Z.leb_le _ _)) by lia. reflexivity. Qed.
Lemma element_out : forall l n s' lo hi w s, n < lo \/ hi < n -> element l (Some (n, s')) lo hi w s = inr (PError l s' (": " +++ w +++ " out of range")).
Proof. intros l n s' lo hi w s H. unfold element. destruct (Z.leb_spec lo n), (Z.leb_spec n hi); try reflexivity. lia. Qed.
Lemma element_inl : forall l r lo hi w s n s', element l r lo hi w s = inl (n, s') -> r = Some (n, s') /\ lo <= n <= hi.
Proof.
  intros l r lo hi w s n s' H. unfold element in H. destruct r as [[k t]|]; [|discriminate]. destruct (Z.leb_spec lo k), (Z.leb_spec k hi); try discriminate.
  cbn [andb] in *. injection H as -> ->. split; [reflexivity|lia].
Qed.
Lemma element_inr : forall l r lo hi w s e, element l r lo hi w s = inr e ->
  (r = None /\ e = PError l s "") \/ exists n s', r = Some (n, s') /\ (n < lo \/ hi < n) /\ e = PError l s' (": " +++ w +++ " out of range").
Proof.
  intros l r lo hi w s e H. unfold element in H. destruct r as [[k t]|]; [right; exists k, t|left; split; congruence].
  destruct (Z.leb_spec lo k), (Z.leb_spec k hi); cbn [andb] in *; try discriminate; (split; [reflexivity|split; [lia|congruence]]).
Qed.

(* the fraction *)
Lemma loose_fraction_none : forall r, ~ (exists c r', fraction_mark c /\ starts_digit r' /\ r = String c r') -> loose_fraction r = (0, r).
Proof.
  intros [|c [|d r]] H; try reflexivity. unfold loose_fraction. destruct (digit d) as [x|] eqn:D; [|reflexivity].
  destruct (Ascii.eqb_spec c "."), (Ascii.eqb_spec c ","); try reflexivity; exfalso; apply H; exists c, (String d r);
    (split; [unfold fraction_mark; auto|]); (split; [|reflexivity]); apply digit_iff in D; destruct D as [D ->]; exists x, r; auto.
Qed.
Lemma loose_fraction_some : forall c d l r, fraction_mark c -> (forall x, In x (d :: l) -> is_digit x) -> no_digit_first r ->
  loose_fraction (String c (digits_text (d :: l)) +++ r) = (billionths (d :: l), r).
Proof.
  intros c d l r C D N. cbn [append digits_text]. unfold loose_fraction. rewrite digit_of by (apply D; left; reflexivity).
  replace (Ascii.eqb c "." || Ascii.eqb c ",")%bool with true by (destruct C as [-> | ->]; reflexivity).
  change (String (digit_char d) (digits_text l +++ r)) with (digits_text (d :: l) +++ r).
  rewrite nanoseconds_digits; [|exact D|exact N|right; reflexivity]. rewrite skip_digits_text; [reflexivity|intros x I; apply D; right; exact I|exact N].
Qed.
Lemma loose_fraction_inv : forall s v r, loose_fraction s = (v, r) -> exists x, s = x +++ r /\ good Fraction v x r.
Proof.
  intros s v r H.
  assert (P : (exists c d t, s = String c (String d t) /\ fraction_mark c /\ digit d <> None) \/ ~ (exists c r', fraction_mark c /\ starts_digit r' /\ s = String c r')).
  { destruct s as [|c [|d t]]; try (right; intros (c' & r' & _ & (x & r2 & _ & ->) & E); discriminate).
    destruct (digit d) as [x|] eqn:D; [|right; intros (c' & r' & _ & (x & r2 & X & ->) & E); injection E as -> -> ->; rewrite digit_of in D by exact X; discriminate].
    destruct (ascii_dec c "."); [left; exists c, d, t; unfold fraction_mark; split; [reflexivity|split; [auto|congruence]]|].
    destruct (ascii_dec c ","); [left; exists c, d, t; unfold fraction_mark; split; [reflexivity|split; [auto|congruence]]|].
    right. intros (c' & r' & [C|C] & _ & E); assert (c = c') by congruence; congruence. }
  destruct P as [(c & d & t & -> & C & D)|P].
  - destruct (digit d) as [x|] eqn:X; [|congruence]. apply digit_iff in X. destruct X as [X ->]. destruct (skip_digits_inv t) as (l & L & E & N).
    assert (A : forall y, In y (x :: l) -> is_digit y) by (intros y [<-|I]; auto).
    replace (String c (String (digit_char x) t)) with (String c (digits_text (x :: l)) +++ skip_digits t) in H by (cbn; rewrite <- E; reflexivity).
    rewrite loose_fraction_some in H by assumption. assert (v = billionths (x :: l)) by congruence. assert (r = skip_digits t) by congruence. subst v r.
    exists (String c (digits_text (x :: l))). split; [cbn; rewrite <- E; reflexivity|]. apply g_part; [exact C|exact A|apply starts_iff; exact N].
  - rewrite loose_fraction_none in H by exact P. assert (v = 0) by congruence. assert (r = s) by congruence. subst. exists "". split; [reflexivity|constructor; exact P].
Qed.

(* the offset *)
Definition zone_tail (s : string) : (option Z * string) + parse_error :=
  let bad := inr (PError "Z07:00" s "") in
  match s with
  | String g (String h1 (String h2 (String p (String m1 (String m2 s'))))) =>
    if negb (Ascii.eqb p ":") then bad
    else
      match getnum true (String h1 (String h2 "")), getnum true (String m1 (String m2 "")) with
      | Some (hr, _), mm =>
        if match mm with Some (n, _) => 60 <? n | None => false end then inr (PError "Z07:00" s' ": time zone offset minute out of range")
        else if 24 <? hr then inr (PError "Z07:00" s' ": time zone offset hour out of range")
        else
          match mm with
          | None => bad
          | Some (n, _) =>
            if Ascii.eqb g "+" then inl (Some ((hr * 60 + n) * 60), s')
            else if Ascii.eqb g "-" then inl (Some (- ((hr * 60 + n) * 60)), s') else bad
          end
      | None, _ => bad
      end
  | _ => bad
  end.
Lemma zone_cases : forall s, (exists s', s = String "Z" s' /\ loose_zone s = inl (None, s')) \/ ((forall s', s <> String "Z" s') /\ loose_zone s = zone_tail s).
Proof.
  intros [|c s]; [right; split; [discriminate|reflexivity]|]. destruct (ascii_dec c "Z") as [->|N]; [left; exists s; split; reflexivity|].
  right. split; [congruence|]. unfold loose_zone, zone_tail. destruct c as [[][][][][][][][]]; try reflexivity. congruence.
Qed.
Lemma getnum_pair : forall h, 0 <= h <= 99 -> getnum true (two_digits h) = Some (h, "").
Proof. intros h H. rewrite <- (app_nil_string (two_digits h)). apply getnum_two. exact H. Qed.
Lemma tail_text : forall g h m1 m2 r, 0 <= h <= 99 -> zone_tail (String g (two_digits h +++ String ":" (String m1 (String m2 r)))) =
  match getnum true (String m1 (String m2 "")) with
  | Some (n, _) => if 60 <? n then inr (PError "Z07:00" r ": time zone offset minute out of range")
      else if 24 <? h then inr (PError "Z07:00" r ": time zone offset hour out of range")
      else if Ascii.eqb g "+" then inl (Some ((h * 60 + n) * 60), r) else if Ascii.eqb g "-" then inl (Some (- ((h * 60 + n) * 60)), r)
      else inr (PError "Z07:00" (String g (two_digits h +++ String ":" (String m1 (String m2 r)))) "")
  | None => if 24 <? h then inr (PError "Z07:00" r ": time zone offset hour out of range")
      else inr (PError "Z07:00" (String g (two_digits h +++ String ":" (String m1 (String m2 r)))) "")
  end.
Proof.
  intros g h m1 m2 r H. assert (E := getnum_pair h H). unfold two_digits in *. cbn [append]. unfold zone_tail. change (Ascii.eqb ":" ":") with true. cbn [negb].
  rewrite E. destruct (getnum true (String m1 (String m2 ""))) as [[n s]|]; reflexivity.
Qed.
Lemma mins_text : forall g h m r, 0 <= h <= 99 -> 0 <= m <= 99 -> zone_tail (String g (two_digits h +++ String ":" (two_digits m)) +++ r) =
  if 60 <? m then inr (PError "Z07:00" r ": time zone offset minute out of range")
  else if 24 <? h then inr (PError "Z07:00" r ": time zone offset hour out of range")
  else if Ascii.eqb g "+" then inl (Some ((h * 60 + m) * 60), r) else if Ascii.eqb g "-" then inl (Some (- ((h * 60 + m) * 60)), r)
  else inr (PError "Z07:00" (String g (two_digits h +++ String ":" (two_digits m)) +++ r) "").
Proof.
  intros g h m r H M. assert (T := tail_text g h (digit_char (m / 10)) (digit_char (m mod 10)) r H). fold (two_digits m) in T. rewrite (getnum_pair m M) in T.
  cbn [append]. rewrite append_assoc. exact T.
Qed.
Lemma sign_not_z : forall g s, g <> "Z"%char -> loose_zone (String g s) = zone_tail (String g s).
Proof. intros g s N. destruct (zone_cases (String g s)) as [(s' & E & _)|[_ E]]; [congruence|exact E]. Qed.
Lemma zone_good : forall v x r, good Offset v x r -> exists o, loose_zone (x +++ r) = inl (o, r) /\ zone_offset o = 60 * v.
Proof.
  intros v x r G. inversion G as [| | | | | | | | |r' E|h m r' H M|h m r' H M|]; subst.
  - exists None. split; reflexivity.
  - cbn [append]. rewrite sign_not_z by discriminate.
    assert (T := mins_text "+" h m r ltac:(lia) ltac:(lia)). cbn [append] in T. rewrite T.
    destruct (Z.ltb_spec 60 m); [lia|]. destruct (Z.ltb_spec 24 h); [lia|]. change (Ascii.eqb "+" "+") with true. eexists. split; [reflexivity|]. cbn [zone_offset]. lia.
  - cbn [append]. rewrite sign_not_z by discriminate.
    assert (T := mins_text "-" h m r ltac:(lia) ltac:(lia)). cbn [append] in T. rewrite T.
    destruct (Z.ltb_spec 60 m); [lia|]. destruct (Z.ltb_spec 24 h); [lia|]. change (Ascii.eqb "-" "+") with false. change (Ascii.eqb "-" "-") with true.
    eexists. split; [reflexivity|]. cbn [zone_offset]. lia.
Qed.
Lemma zone_over : forall x r, over Offset x -> exists msg, msg <> "" /\ loose_zone (x +++ r) = inr (PError "Z07:00" r msg).
Proof.
  intros x r O. inversion O as [| | | |g h m1 m2 G H|g h m G H M]; subst.
  - cbn [append]. rewrite sign_not_z by exact G. rewrite append_assoc. cbn [append]. rewrite tail_text by lia.
    replace (24 <? h) with true by (symmetry; apply Z.ltb_lt; lia).
    destruct (getnum true (String m1 (String m2 ""))) as [[n s]|]; [destruct (60 <? n)|]; eexists; (split; [|reflexivity]); discriminate.
  - change (String g (two_digits h +++ String ":" (two_digits m)) +++ r) with (String g ((two_digits h +++ String ":" (two_digits m)) +++ r)).
    rewrite sign_not_z by exact G. assert (T := mins_text g h m r ltac:(lia) ltac:(lia)). cbn [append] in T. rewrite T.
    replace (60 <? m) with true by (symmetry; apply Z.ltb_lt; lia). eexists; (split; [|reflexivity]); discriminate.
Qed.
Lemma zone_inv : forall s, match loose_zone s with
  | inl (o, r) => exists v x, zone_offset o = 60 * v /\ s = x +++ r /\ good Offset v x r
  | inr e => e = PError "Z07:00" s "" \/ exists x r, s = x +++ r /\ over Offset x /\ value_elem e = r /\ layout_elem e = "Z07:00"
  end.
Proof.
  intro s. destruct (zone_cases s) as [(s' & -> & ->)|[N ->]]; [exists 0, "Z"; repeat split; constructor|].
  destruct s as [|g [|h1 [|h2 [|p [|m1 [|m2 r]]]]]]; try (left; reflexivity). 
  destruct (ascii_dec p ":") as [->|P].
  2: { unfold zone_tail. destruct (Ascii.eqb_spec p ":"); [congruence|]. left. reflexivity. }
  assert (G : g <> "Z"%char) by (intros ->; apply (N _ eq_refl)).
  destruct (getnum true (String h1 (String h2 ""))) as [[h x]|] eqn:H.
  2: { unfold zone_tail. change (Ascii.eqb ":" ":") with true. cbn [negb]. rewrite H. left. reflexivity. }
  apply getnum_inv in H. destruct H as [[H E]|[H _]]; [|discriminate]. unfold two_digits in E. cbn [append] in E.
  assert (Eh : String h1 (String h2 (String ":" (String m1 (String m2 r)))) = two_digits h +++ String ":" (String m1 (String m2 r))) by (unfold two_digits; cbn [append]; congruence).
  rewrite Eh. rewrite tail_text by exact H.
  destruct (getnum true (String m1 (String m2 ""))) as [[m y]|] eqn:M.
  - apply getnum_inv in M. destruct M as [[M E2]|[M _]]; [|discriminate]. unfold two_digits in E2. cbn [append] in E2.
    assert (Em : forall a, String a (two_digits h +++ String ":" (String m1 (String m2 r))) = String a (two_digits h +++ String ":" (two_digits m)) +++ r)
      by (intro a; cbn [append]; rewrite append_assoc; unfold two_digits; cbn [append]; congruence).
    destruct (Z.ltb_spec 60 m) as [B|B]; [right; do 2 eexists; split; [apply Em|]; split; [apply o_minutes; (assumption || lia)|split; reflexivity]|].
    destruct (Z.ltb_spec 24 h) as [C|C].
    { right. exists (String g (two_digits h +++ String ":" (String m1 (String m2 "")))), r. split; [cbn [append]; rewrite append_assoc; reflexivity|].
      split; [apply o_hours; (assumption || lia)|split; reflexivity]. }
    destruct (Ascii.eqb_spec g "+") as [->|]; [|destruct (Ascii.eqb_spec g "-") as [->|]; [|left; reflexivity]].
    + exists (60 * h + m). eexists. split; [cbn [zone_offset]; lia|]. split; [apply Em|]. apply g_east; lia.
    + exists (- (60 * h + m)). eexists. split; [cbn [zone_offset]; lia|]. split; [apply Em|]. apply g_west; lia.
  - destruct (Z.ltb_spec 24 h) as [C|C]; [|left; reflexivity].
    right. exists (String g (two_digits h +++ String ":" (String m1 (String m2 "")))), r. split; [cbn [append]; rewrite append_assoc; reflexivity|].
    split; [apply o_hours; (assumption || lia)|split; reflexivity].
Qed.

(* all parts *)
Lemma good_read : forall p v x r, good p v x r -> read_part p (x +++ r) = inl (v, r).
Proof.
  intros p v x r G. destruct p.
  9: { inversion G; subst. cbn [read_part append]. unfold separator. rewrite skip_char_eq. reflexivity. }
  8: { destruct (zone_good v x r G) as (o & E & Z). cbn [read_part]. rewrite E, Z. do 2 f_equal. rewrite Z.mul_comm. apply Z.div_mul. lia. }
  7: { cbn [read_part]. f_equal. inversion G; subst; [apply loose_fraction_none; assumption|]. apply loose_fraction_some; try assumption. apply starts_iff. assumption. }
  all: inversion G; subst; cbn [read_part].
  - rewrite uint_four by lia. apply element_in. lia.
  - rewrite getnum_two by lia. apply element_in. lia.
  - rewrite getnum_two by lia. apply element_in. lia.
  - rewrite getnum_two by lia. apply element_in. lia.
  - cbn [append]. rewrite getnum_short by (try assumption; apply starts_iff; assumption). unfold is_digit in *. apply element_in. lia.
  - rewrite getnum_two by lia. apply element_in. lia.
  - rewrite getnum_two by lia. apply element_in. lia.
Qed.
Lemma over_read : forall p x r, over p x -> exists msg, msg <> "" /\ read_part p (x +++ r) = inr (PError (layout_of p) r msg).
Proof.
  intros p x r O. destruct p.
  8: { destruct (zone_over x r O) as (msg & M & E). exists msg. split; [exact M|]. cbn [read_part layout_of]. rewrite E. reflexivity. }
  all: inversion O; subst; cbn [read_part layout_of]; rewrite getnum_two by lia; rewrite element_out by lia; eexists; (split; [|reflexivity]); discriminate.
Qed.
Lemma read_good : forall p s v r, read_part p s = inl (v, r) -> exists x, s = x +++ r /\ good p v x r.
Proof.
  assert (F : forall fixed s n r l lo hi w, element l (getnum fixed s) lo hi w s = inl (n, r) -> lo <= n <= hi /\
    ((0 <= n <= 99 /\ s = two_digits n +++ r) \/ (fixed = false /\ is_digit n /\ ~ starts_digit r /\ s = String (digit_char n) "" +++ r))).
  { intros fixed s n r l lo hi w H. apply element_inl in H. destruct H as [H B]. split; [exact B|]. apply getnum_inv in H. destruct H as [H|(H & D & N & E)]; [left; exact H|right].
    apply starts_iff in N. auto. }
  intros p s v r H. destruct p; cbn [read_part] in H.
  - apply element_inl in H. destruct H as [H _]. apply uint_four_inv in H. destruct H as [-> B]. eexists. split; [reflexivity|constructor; exact B].
  - apply F in H. destruct H as [B [[_ ->]|[? _]]]; [|discriminate]. eexists. split; [reflexivity|constructor; exact B].
  - apply F in H. destruct H as [B [[_ ->]|[? _]]]; [|discriminate]. eexists. split; [reflexivity|constructor; exact B].
  - apply F in H. destruct H as [B [[_ ->]|(_ & D & N & ->)]]; eexists; (split; [reflexivity|]); [apply g_hour; exact B|apply g_short; assumption].
  - apply F in H. destruct H as [B [[_ ->]|[? _]]]; [|discriminate]. eexists. split; [reflexivity|constructor; exact B].
  - apply F in H. destruct H as [B [[_ ->]|[? _]]]; [|discriminate]. eexists. split; [reflexivity|constructor; exact B].
  - apply loose_fraction_inv. congruence.
  - assert (Z := zone_inv s). destruct (loose_zone s) as [[o t]|]; [|discriminate]. destruct Z as (u & x & Z & -> & G). rewrite Z in H.
    rewrite Z.mul_comm, Z.div_mul in H by lia. injection H as <- <-. eauto.
  - unfold separator in H. destruct (skip_char c s) as [t|] eqn:E; [|discriminate]. apply skip_char_inv in E. subst s. injection H as <- <-.
    exists (String c ""). split; [reflexivity|constructor].
Qed.
Lemma read_error : forall p s e, read_part p s = inr e ->
  e = PError (layout_of p) s "" \/ exists x r, s = x +++ r /\ over p x /\ value_elem e = r /\ layout_elem e = layout_of p.
Proof.
  assert (F : forall fixed p s l lo hi w e, element l (getnum fixed s) lo hi w s = inr e -> l = layout_of p ->
    (forall n, n < lo \/ hi < n -> 0 <= n <= 99 -> over p (two_digits n)) -> (lo <= 0 -> 9 <= hi \/ fixed = true) -> (lo <= 0 \/ fixed = true) ->
    e = PError (layout_of p) s "" \/ exists x r, s = x +++ r /\ over p x /\ value_elem e = r /\ layout_elem e = layout_of p).
  { intros fixed p s l lo hi w e H -> O W W'. apply element_inr in H. destruct H as [[_ ->]|(n & r & G & B & ->)]; [left; reflexivity|right].
    apply getnum_inv in G. destruct G as [[G ->]|(-> & D & _)]; [exists (two_digits n), r; repeat split; apply O; assumption|].
    unfold is_digit in D. destruct W' as [W'|]; [|discriminate]. destruct (W W') as [W2|]; [lia|discriminate]. }
  intros p s e H. destruct p; cbn [read_part] in H.
  - left. apply element_inr in H. destruct H as [[_ ->]|(n & r & G & B & _)]; [reflexivity|]. apply uint_four_inv in G. lia.
  - apply F with (p := Month) in H; try tauto. intros n B R. constructor. lia.
  - apply F with (p := Day) in H; try tauto. intros n B R. lia.
  - apply F with (p := Hour) in H; [exact H|reflexivity|intros n B R; constructor; lia|lia|left; lia].
  - apply F with (p := Minute) in H; try tauto. intros n B R. constructor. lia.
  - apply F with (p := Second) in H; try tauto. intros n B R. constructor. lia.
  - discriminate.
  - assert (Z := zone_inv s). destruct (loose_zone s) as [[o t]|]; [discriminate|]. injection H as <-. exact Z.
  - left. unfold separator in H. destruct (skip_char c s); [discriminate|]. cbn [layout_of]. congruence.
Qed.
Lemma bad_iff : forall p s, bad p s <-> read_part p s = inr (PError (layout_of p) s "").
Proof.
  intros p s. split.
  - intro B. destruct (read_part p s) as [[v r]|e] eqn:R.
    + apply read_good in R. destruct R as (x & -> & G). destruct (B x r eq_refl) as [_ N]. destruct (N v G).
    + apply read_error in R. destruct R as [->|(x & r & -> & O & _)]; [reflexivity|]. destruct (B x r eq_refl) as [N _]. destruct (N O).
  - intros H x r ->. split.
    + intro O. destruct (over_read p x r O) as (msg & M & E). congruence.
    + intros v G. apply good_read in G. congruence.
Qed.

(* ----- Texts ----- *)

Fixpoint run (ps : list part) (s : string) : (list Z * string) + parse_error :=
  match ps with
  | [] => inl ([], s)
  | p :: ps' => match read_part p s with
                | inl (v, r) => match run ps' r with inl (vs, t) => inl (v :: vs, t) | inr e => inr e end
                | inr e => inr e
                end
  end.
Lemma reading_run : forall ps s vs r, reading ps s vs r <-> run ps s = inl (vs, r).
Proof.
  intros ps s vs r. split.
  - intro H. induction H as [t|p ps v vs x r s G H IH]; cbn [run]; [reflexivity|]. rewrite (good_read _ _ _ _ G), IH. reflexivity.
  - revert s vs r. induction ps as [|p ps IH]; intros s vs r H; cbn [run] in H; [injection H as <- <-; constructor|].
    destruct (read_part p s) as [[v t]|] eqn:R; [|discriminate]. destruct (run ps t) as [[us u]|] eqn:U; [|discriminate]. injection H as <- <-.
    apply read_good in R. destruct R as (x & -> & G). econstructor; eauto.
Qed.
Lemma run_app : forall ps p qs s vs r e, run ps s = inl (vs, r) -> read_part p r = inr e -> run (ps ++ p :: qs) s = inr e.
Proof.
  induction ps as [|q ps IH]; intros p qs s vs r e R E; cbn [run app] in *; [injection R as _ <-; rewrite E; reflexivity|].
  destruct (read_part q s) as [[v t]|]; [|discriminate]. destruct (run ps t) as [[us u]|] eqn:U; [|discriminate]. injection R as _ <-.
  rewrite (IH p qs t us u e U E). reflexivity.
Qed.
Lemma run_error : forall ps s e, run ps s = inr e -> exists qs p rs vs r, ps = qs ++ p :: rs /\ run qs s = inl (vs, r) /\ read_part p r = inr e.
Proof.
  induction ps as [|q ps IH]; intros s e H; cbn [run] in H; [discriminate|].
  destruct (read_part q s) as [[v t]|e'] eqn:R; [|exists [], q, ps, [], s; repeat split; congruence].
  destruct (run ps t) as [[us u]|e'] eqn:U; [discriminate|]. injection H as <-. destruct (IH t e' U) as (qs & p & rs & vs & r & -> & A & B).
  exists (q :: qs), p, rs, (v :: vs), r. split; [reflexivity|]. split; [|exact B]. cbn [run]. rewrite R, A. reflexivity.
Qed.

(* The general parser, by its parts. *)
Definition finish (y m d h mi sec ns z : Z) (s : string) (o : option Z) : (Z * Z * option Z) + parse_error :=
  if negb (String.eqb s "") then inr (PError "" s (": extra text: " +++ s))
  else if (d <? 1) || (days_in m y <? d) then inr (PError "" "" ": day out of range")
  else inl (86400 * days_since y m d + 3600 * h + 60 * mi + sec - 60 * z, ns, o).
Lemma parse_run : forall s, match run rfc3339 s with
  | inr e => parse_loose s = inr e
  | inl (vs, r) => exists y m d h mi sec ns z o, vs = [y; 0; m; 0; d; 0; h; 0; mi; 0; sec; ns; z] /\ zone_offset o = 60 * z /\
      parse_loose s = finish y m d h mi sec ns z r o
  end.
Proof.
  intro s. unfold rfc3339. cbn [run read_part]. unfold parse_loose.
  destruct (element "2006" _ _ _ _ _) as [[y s1]|]; [|reflexivity]. destruct (separator "-" s1) as [s2|]; [|reflexivity].
  destruct (element "01" _ _ _ _ _) as [[m s3]|]; [|reflexivity]. destruct (separator "-" s3) as [s4|]; [|reflexivity].
  destruct (element "02" _ _ _ _ _) as [[d s5]|]; [|reflexivity]. destruct (separator "T" s5) as [s6|]; [|reflexivity].
  destruct (element "15" _ _ _ _ _) as [[h s7]|]; [|reflexivity]. destruct (separator ":" s7) as [s8|]; [|reflexivity].
  destruct (element "04" _ _ _ _ _) as [[mi s9]|]; [|reflexivity]. destruct (separator ":" s9) as [s10|]; [|reflexivity].
  destruct (element "05" _ _ _ _ _) as [[sec s11]|]; [|reflexivity]. destruct (loose_fraction s11) as [ns s12].
  assert (Z := zone_inv s12). destruct (loose_zone s12) as [[o s13]|]; [|reflexivity]. destruct Z as (z & _ & Z & _).
  exists y, m, d, h, mi, sec, ns, z, o. rewrite Z. replace (60 * z / 60) with z by (rewrite Z.mul_comm, Z.div_mul; lia).
  split; [reflexivity|]. split; reflexivity.
Qed.

(* The strict parser takes nothing else. *)
Lemma strict_loose : forall s x, parse_rfc3339 s = Some x -> parse_loose s = inl x.
Proof.
  intros s [[sec ns] o] P. unfold parse_rfc3339 in P.
  destruct (number_in 4 0 9999 s) as [[y s1]|] eqn:E; [|discriminate]. apply number_in_four_inv in E. destruct E as [-> Y].
  destruct (skip_char "-" s1) as [s2|] eqn:E; [|discriminate]. apply skip_char_inv in E. subst s1.
  destruct (number_in 2 1 12 s2) as [[m s3]|] eqn:E; [|discriminate]. apply number_in_two_inv in E. destruct E as (-> & M & _).
  destruct (skip_char "-" s3) as [s4|] eqn:E; [|discriminate]. apply skip_char_inv in E. subst s3.
  destruct (number_in 2 1 (days_in m y) s4) as [[d s5]|] eqn:E; [|discriminate]. apply number_in_two_inv in E. destruct E as (-> & D & D').
  destruct (skip_char "T" s5) as [s6|] eqn:E; [|discriminate]. apply skip_char_inv in E. subst s5.
  destruct (number_in 2 0 23 s6) as [[h s7]|] eqn:E; [|discriminate]. apply number_in_two_inv in E. destruct E as (-> & H & _).
  destruct (skip_char ":" s7) as [s8|] eqn:E; [|discriminate]. apply skip_char_inv in E. subst s7.
  destruct (number_in 2 0 59 s8) as [[mi s9]|] eqn:E; [|discriminate]. apply number_in_two_inv in E. destruct E as (-> & MI & _).
  destruct (skip_char ":" s9) as [s10|] eqn:E; [|discriminate]. apply skip_char_inv in E. subst s9.
  destruct (number_in 2 0 59 s10) as [[se s11]|] eqn:E; [|discriminate]. apply number_in_two_inv in E. destruct E as (-> & SE & _).
  assert (X : forall n rest, 0 <= n <= 9999 -> element "2006" (parse_uint 4 0 (four_digits n +++ rest)) 0 9999 "year" (four_digits n +++ rest) = inl (n, rest))
    by (intros n rest B; rewrite uint_four by exact B; apply element_in; lia).
  assert (X2 : forall fixed l lo hi w n rest, lo <= n <= hi -> 0 <= n <= 99 -> element l (getnum fixed (two_digits n +++ rest)) lo hi w (two_digits n +++ rest) = inl (n, rest))
    by (intros fixed l lo hi w n rest B B'; rewrite getnum_two by exact B'; apply element_in; lia).
  assert (X3 : forall c rest, separator c (String c rest) = inl rest) by (intros; unfold separator; rewrite skip_char_eq; reflexivity).
  unfold parse_loose. rewrite X, X3, X2, X3, X2, X3, X2, X3, X2, X3, X2 by lia.
  destruct (parse_fraction s11) as [n s12] eqn:F. apply parse_fraction_inv in F. destruct F as (f & ft & F & -> & ->).
  destruct (parse_zone s12) as [off|] eqn:Z; [|discriminate]. assert (Z' := Z). apply parse_zone_inv in Z'. destruct Z' as (z & ZT & Ez).
  assert (LF : loose_fraction (ft +++ s12) = (billionths f, s12)).
  { destruct F as [|e l F].
    - cbn [append]. change (billionths []) with 0. apply loose_fraction_none. intros (c & r & [-> | ->] & _ & E); subst s12; inversion ZT.
    - apply loose_fraction_some; [left; reflexivity|exact F|]. destruct ZT; reflexivity. }
  rewrite LF.
  assert (LZ : loose_zone s12 = inl (off, "")).
  { destruct ZT as [|h' m' Hh Hm|h' m' Hh Hm]; [cbn in Z |- *; congruence| |].
    - assert (T := mins_text "+" h' m' "" ltac:(lia) ltac:(lia)). rewrite !app_nil_string in T. rewrite sign_not_z by discriminate. rewrite T.
      destruct (Z.ltb_spec 60 m'); [lia|]. destruct (Z.ltb_spec 24 h'); [lia|]. change (Ascii.eqb "+" "+") with true. cbv iota. do 2 f_equal.
      unfold parse_zone in Z. rewrite number_in_two, skip_char_eq in Z by lia. rewrite <- (app_nil_string (two_digits m')), number_in_two in Z by lia.
      change (Ascii.eqb "+" "+") with true in Z. cbv iota in Z. congruence.
    - assert (T := mins_text "-" h' m' "" ltac:(lia) ltac:(lia)). rewrite !app_nil_string in T. rewrite sign_not_z by discriminate. rewrite T.
      destruct (Z.ltb_spec 60 m'); [lia|]. destruct (Z.ltb_spec 24 h'); [lia|]. change (Ascii.eqb "-" "+") with false. change (Ascii.eqb "-" "-") with true. cbv iota. do 2 f_equal.
      unfold parse_zone in Z. rewrite number_in_two, skip_char_eq in Z by lia. rewrite <- (app_nil_string (two_digits m')), number_in_two in Z by lia.
      change (Ascii.eqb "-" "+") with false in Z. change (Ascii.eqb "-" "-") with true in Z. cbv iota in Z. congruence. }
  rewrite LZ. cbn [String.eqb negb]. destruct (Z.ltb_spec d 1); [lia|]. destruct (Z.ltb_spec (days_in m y) d); [lia|]. cbn [orb]. congruence.
Qed.
Lemma time_parse_loose : forall s, time_parse s = parse_loose s.
Proof. intro s. unfold time_parse. destruct (parse_rfc3339 s) as [x|] eqn:P; [|reflexivity]. symmetry. apply strict_loose. exact P. Qed.

(* What is read. *)
Lemma good_bound : forall p v x r, good p v x r ->
  match p with
  | Year => 0 <= v <= 9999 | Month => 1 <= v <= 12 | Day => 0 <= v <= 99 | Hour => 0 <= v <= 23 | Minute => 0 <= v <= 59 | Second => 0 <= v <= 59
  | Fraction => 0 <= v < 1000000000 | Offset => -1500 <= v <= 1500 | Mark _ => v = 0
  end.
Proof.
  intros p v x r []; unfold is_digit in *; try lia. unfold billionths. assert (B := value_bound (d :: l) H0).
  set (q := 10 ^ Z.of_nat (List.length (d :: l))) in *. split; [apply Z.div_pos; lia|]. apply Z.div_lt_upper_bound; lia.
Qed.
Lemma reading_values : forall s vs r, reading rfc3339 s vs r -> exists y m d h mi sec ns z, vs = [y; 0; m; 0; d; 0; h; 0; mi; 0; sec; ns; z] /\
  0 <= y <= 9999 /\ 1 <= m <= 12 /\ 0 <= d <= 99 /\ 0 <= h <= 23 /\ 0 <= mi <= 59 /\ 0 <= sec <= 59 /\ 0 <= ns < 1000000000 /\ -1500 <= z <= 1500.
Proof.
  intros s vs r H. unfold rfc3339 in H.
  repeat match goal with
         | H : reading (_ :: _) _ _ _ |- _ => inversion H; clear H; subst
         | H : reading [] _ _ _ |- _ => inversion H; clear H; subst
         end.
  repeat match goal with G : good _ _ _ _ |- _ => apply good_bound in G end. subst. do 8 eexists. split; [reflexivity|]. tauto.
Qed.
Lemma date_iff : forall y m d, 1 <= m <= 12 -> is_date (Date y m d) <-> 1 <= d <= days_in m y.
Proof.
  intros y m d M. unfold is_date. cbn [year month day]. split.
  - intros (n & L & B). apply month_length_iff in L. destruct L as [_ ->]. exact B.
  - intro B. exists (days_in m y). split; [apply month_length_iff; auto|exact B].
Qed.
Lemma reads_iff : forall t ns z, reads t ns z <-> exists sec n o, time_parse t = inl (sec, n, o) /\ ns = 1000000000 * sec + n /\ zone_offset o = 60 * z.
Proof.
  intros t ns z. rewrite time_parse_loose. assert (P := parse_run t). split.
  - intros (y & m & d & h & mi & s & f & n & R & N & ->). assert (V := reading_values _ _ _ R). apply reading_run in R. rewrite R in P.
    destruct P as (y' & m' & d' & h' & mi' & s' & f' & z' & o & E & Z & P). injection E as <- <- <- <- <- <- <- <-.
    destruct V as (y' & m' & d' & h' & mi' & s' & f' & z' & E & Y & M & _). injection E as <- <- <- <- <- <- <- <-.
    apply number_spec in N. destruct N as [D ->]. apply date_iff in D; [|exact M]. rewrite P. unfold finish. cbn [String.eqb negb].
    destruct (Z.ltb_spec d 1); [lia|]. destruct (Z.ltb_spec (days_in m y) d); [lia|]. cbn [orb]. do 3 eexists. split; [reflexivity|]. split; [reflexivity|exact Z].
  - intros (sec & n & o & L & -> & Z). destruct (run rfc3339 t) as [[vs r]|e] eqn:R; [|congruence]. apply reading_run in R.
    assert (V := reading_values _ _ _ R). destruct P as (y & m & d & h & mi & s & f & z' & o' & -> & Z' & P).
    destruct V as (y' & m' & d' & h' & mi' & s' & f' & z2 & E & Y & M & _). injection E as <- <- <- <- <- <- <- <-.
    rewrite L in P. unfold finish in P. destruct (String.eqb_spec r ""); [subst r; cbn [negb] in P|discriminate].
    destruct (Z.ltb_spec d 1); [discriminate|]. destruct (Z.ltb_spec (days_in m y) d); [discriminate|]. cbn [orb] in P.
    assert (o' = o) by congruence. subst o'. assert (z' = z) by lia. subst z'. exists y, m, d, h, mi, s, f, (number (Date y m d)). split; [exact R|].
    split; [apply day_number_exists; [apply date_iff; [exact M|lia]|cbn [year]; lia]|].
    assert (sec = 86400 * days_since y m d + 3600 * h + 60 * mi + s - 60 * z) by congruence. assert (n = f) by congruence. subst sec n. reflexivity.
Qed.
Lemma parsed_bound : forall t sec n o, time_parse t = inl (sec, n, o) -> 0 <= n < 1000000000.
Proof.
  intros t sec n o L. rewrite time_parse_loose in L. assert (P := parse_run t). destruct (run rfc3339 t) as [[vs r]|e] eqn:R; [|congruence].
  apply reading_run in R. assert (V := reading_values _ _ _ R). destruct P as (y & m & d & h & mi & s & f & z' & o' & -> & Z' & P).
  destruct V as (y' & m' & d' & h' & mi' & s' & f' & z2 & E & Y & M & _ & _ & _ & _ & F & _). injection E as <- <- <- <- <- <- <- <-.
  rewrite L in P. unfold finish in P. destruct (negb _); [discriminate|]. destruct (_ || _)%bool; [discriminate|]. congruence.
Qed.

(* What is said about the rest. *)
Lemma error_text : forall quoted p r msg, p <> Fraction -> (forall c, p = Mark c -> c = "T"%char \/ c = ":"%char \/ c = "-"%char) ->
  timestamp_error quoted (PError (layout_of p) r msg) = "not a valid RFC3339 timestamp" +++ complaint quoted p r.
Proof.
  intros quoted p r msg N C. unfold timestamp_error. cbn [layout_elem value_elem error_message]. f_equal. destruct p; try congruence; try (destruct r; reflexivity).
  destruct (C c eq_refl) as [-> |[-> | ->]]; [reflexivity|destruct r; reflexivity|destruct r; reflexivity].
Qed.
Lemma rfc_parts : forall p, In p rfc3339 -> (p = Fraction \/ p <> Fraction) /\ forall c, p = Mark c -> c = "T"%char \/ c = ":"%char \/ c = "-"%char.
Proof.
  intros p I. split; [destruct p; auto; right; discriminate|]. intros c ->. unfold rfc3339 in I. cbn in I.
  repeat (destruct I as [I|I]; [try discriminate I; injection I as <-; auto|]). destruct I.
Qed.
Lemma refusal_iff : forall quoted t msg, refusal quoted t msg <->
  exists e, time_parse t = inr e /\ timestamp_error quoted e = "not a valid RFC3339 timestamp" +++ msg.
Proof.
  intros quoted t msg. rewrite time_parse_loose. assert (P := parse_run t). split.
  - intro H. revert P. destruct H as [ps p qs s vs r E R B|ps p qs s vs x r E R O|s vs r R N|s y m d h mi sec f z R N]; intro P.
    + destruct (rfc_parts p ltac:(rewrite <- E; apply in_elt)) as [[F|F] C].
      * subst p. apply bad_iff in B. discriminate.
      * apply bad_iff in B. apply reading_run in R. assert (X := run_app ps p qs s vs r _ R B). rewrite E in X. rewrite X in P.
        eexists. split; [exact P|]. apply error_text; assumption.
    + destruct (rfc_parts p ltac:(rewrite <- E; apply in_elt)) as [[F|F] C]; [subst p; inversion O|].
      destruct (over_read p x r O) as (msg & _ & B). apply reading_run in R. assert (X := run_app ps p qs s vs _ _ R B). rewrite E in X. rewrite X in P.
      eexists. split; [exact P|]. apply error_text; assumption.
    + apply reading_run in R. rewrite R in P. destruct P as (y & m & d & h & mi & sec & f & z & o & _ & _ & P). rewrite P. unfold finish.
      destruct (String.eqb_spec r ""); [congruence|]. cbn [negb]. eexists. split; [reflexivity|]. unfold timestamp_error. cbn [layout_elem value_elem error_message].
      f_equal. destruct r; [congruence|reflexivity].
    + assert (V := reading_values _ _ _ R). apply reading_run in R. rewrite R in P. destruct P as (y' & m' & d' & h' & mi' & s' & f' & z' & o & E & Z & P).
      injection E as <- <- <- <- <- <- <- <-. destruct V as (y' & m' & d' & h' & mi' & s' & f' & z' & E & Y & M & _). injection E as <- <- <- <- <- <- <- <-.
      rewrite P. unfold finish. cbn [String.eqb negb]. rewrite date_iff in N by exact M.
      exists (PError "" "" ": day out of range"). split; [|reflexivity]. destruct (Z.ltb_spec d 1); [reflexivity|]. destruct (Z.ltb_spec (days_in m y) d); [reflexivity|]. lia.
  - intros (e & L & T). assert (AI : forall a b c : string, a +++ b = a +++ c -> b = c) by (induction a as [|k a IH]; cbn; intros b c H; [exact H|injection H; apply IH]).
    destruct (run rfc3339 t) as [[vs r]|e'] eqn:R.
    + apply reading_run in R. assert (V := reading_values _ _ _ R). destruct P as (y & m & d & h & mi & sec & f & z & o & -> & Z & P).
      destruct V as (y' & m' & d' & h' & mi' & s' & f' & z2 & E & Y & M & _). injection E as <- <- <- <- <- <- <- <-.
      rewrite L in P. unfold finish in P. destruct (String.eqb_spec r "") as [->|N].
      * cbn [negb] in P. destruct ((d <? 1) || (days_in m y <? d))%bool eqn:B; [|discriminate].
        assert (e = PError "" "" ": day out of range") by congruence. subst e. apply AI in T. cbn in T. subst msg. eapply rf_day; [exact R|].
        rewrite date_iff by exact M. apply Bool.orb_true_iff in B. rewrite !Z.ltb_lt in B. lia.
      * cbn [negb] in P. assert (e = PError "" r (": extra text: " +++ r)) by congruence. subst e. apply AI in T. cbn [layout_elem value_elem error_message] in T.
        destruct r as [|c r]; [congruence|]. cbn in T. subst msg. eapply rf_extra; [exact R|discriminate].
    + assert (e' = e) by congruence. subst e'. apply run_error in R. destruct R as (qs & p & rs & vs & r & E & R & B). apply reading_run in R.
      destruct (rfc_parts p ltac:(rewrite E; apply in_elt)) as [[F|F] C]; [subst p; discriminate|].
      destruct e as [le ve em]. assert (B0 := B). apply read_error in B. destruct B as [B|(x & r' & -> & O & Ev & El)].
      * rewrite B in T. rewrite error_text in T by assumption. apply AI in T. subst msg. eapply rf_bad; [symmetry; exact E|exact R|]. apply bad_iff. congruence.
      * cbn in Ev, El. subst ve le. rewrite error_text in T by assumption. apply AI in T. subst msg. eapply rf_over; [symmetry; exact E|exact R|exact O].
Qed.

(* With an offset of less than a day there is a timestamp for what is read. *)
Lemma zone_for : forall o z, zone_offset o = 60 * z -> -1439 <= z <= 1439 -> exists zt, zone_text z zt /\ parse_zone zt = Some o.
Proof.
  intros [off|] z E B; cbn [zone_offset] in E; [|exists "Z"; replace z with 0 by lia; split; [constructor|reflexivity]]. subst off.
  assert (D := Z.div_mod (Z.abs z) 60 ltac:(lia)). assert (M := Z.mod_pos_bound (Z.abs z) 60 ltac:(lia)).
  set (h := Z.abs z / 60) in *. set (m := Z.abs z mod 60) in *.
  destruct (Z_le_gt_dec 0 z) as [P|P].
  - exists (String "+" (two_digits h +++ String ":" (two_digits m))). replace z with (60 * h + m) by lia. split; [apply zt_east; lia|].
    unfold parse_zone. rewrite number_in_two, skip_char_eq by lia. rewrite <- (app_nil_string (two_digits m)), number_in_two by lia.
    change (Ascii.eqb "+" "+") with true. cbv iota. do 2 f_equal. lia.
  - exists (String "-" (two_digits h +++ String ":" (two_digits m))). replace z with (- (60 * h + m)) by lia. split; [apply zt_west; lia|].
    unfold parse_zone. rewrite number_in_two, skip_char_eq by lia. rewrite <- (app_nil_string (two_digits m)), number_in_two by lia.
    change (Ascii.eqb "-" "+") with false. change (Ascii.eqb "-" "-") with true. cbv iota. do 2 f_equal. lia.
Qed.
Lemma strict_text : forall y mo d h m s f ft z zt o, is_date (Date y mo d) -> 0 <= y <= 9999 -> 0 <= h <= 23 -> 0 <= m <= 59 -> 0 <= s <= 59 ->
  fraction_text f ft -> zone_text z zt -> parse_zone zt = Some o ->
  parse_rfc3339 (four_digits y +++ "-" +++ two_digits mo +++ "-" +++ two_digits d +++ "T" +++ two_digits h +++ ":" +++ two_digits m +++ ":" +++ two_digits s +++ ft +++ zt) =
  Some (86400 * days_since y mo d + 3600 * h + 60 * m + s - zone_offset o, billionths f, o).
Proof.
  intros y mo d h m s f ft z zt o (n & L & D) Y H M S F Z P. cbn [year month day] in *. apply month_length_iff in L. destruct L as [L ->].
  assert (X : 28 <= days_in mo y <= 31) by (apply length_pos with y mo; apply month_length_iff; auto).
  unfold parse_rfc3339. rewrite number_in_four by lia. cbn [append]. rewrite skip_char_eq, number_in_two, skip_char_eq by lia.
  rewrite number_in_two, skip_char_eq by lia. rewrite number_in_two, skip_char_eq by lia. rewrite number_in_two, skip_char_eq by lia.
  rewrite number_in_two by lia. rewrite (parse_fraction_text _ _ _ F) by (eapply zone_text_start; eauto). rewrite P. reflexivity.
Qed.
Lemma like_timestamp : forall t ns z, reads t ns z -> -1439 <= z <= 1439 -> exists t', says t' ns /\ time_parse t' = time_parse t.
Proof.
  intros t ns z R B. assert (Q := R). apply reads_iff in Q. destruct Q as (sec & n & o & Q & -> & O).
  destruct R as (y & m & d & h & mi & s & f & k & R & K & En). assert (V := reading_values _ _ _ R).
  destruct V as (y' & m' & d' & h' & mi' & s' & f' & z' & E & Y & M & D & H & MI & S & F & Z). injection E as <- <- <- <- <- <- <- <-.
  assert (G : exists l ft, fraction_text l ft /\ f = billionths l).
  { unfold rfc3339 in R. repeat match goal with X : reading (_ :: _) _ _ _ |- _ => inversion X; clear X; subst end.
    match goal with X : good Fraction _ _ _ |- _ => inversion X; subst end; [exists [], ""; split; [constructor|reflexivity]|].
    eexists. eexists. split; [constructor; eassumption|reflexivity]. }
  destruct G as (l & ft & L & ->). destruct (zone_for o z O B) as (zt & ZT & PZ).
  apply number_spec in K. destruct K as [ID ->]. unfold number in En. cbn [year month day] in En.
  assert (ST := strict_text y m d h mi s l ft z zt o ID Y H MI S L ZT PZ).
  assert (NB := parsed_bound _ _ _ _ Q).
  assert (E1 : sec = 86400 * days_since y m d + 3600 * h + 60 * mi + s - zone_offset o /\ n = billionths l) by lia. destruct E1 as [-> ->].
  eexists. split; [apply says_iff; do 3 eexists; split; [exact ST|reflexivity]|].
  unfold time_parse at 1. rewrite ST. symmetry. exact Q.
Qed.
Lemma says_reads : forall t ns, says t ns -> exists z, reads t ns z.
Proof.
  intros t ns H. apply says_iff in H. destruct H as (sec & n & o & P & ->). assert (Q := P). apply parse_timestamp_inv in Q. destruct Q as (a & secs & f & z & _ & Z & _).
  exists z. apply reads_iff. exists sec, n, o. split; [|split; [reflexivity|exact Z]]. rewrite time_parse_loose. apply strict_loose. exact P.
Qed.
