(* Proofs about ParseIP and ParseCIDR of IpModel.v, and byte strings as numbers. *)

From Coq Require Import ZifyBool ZifyNat ZifyN.
From Verif Require Import Base IpModel IpSpec IpProofs IpProofs6.
Ltac Zify.zify_post_hook ::= Z.div_mod_to_equations.

(* ------------------------------------------------------------------- ParseIP *)

(* The first '.' or ':' of a text. *)
Fixpoint first_sep (s : string) : option bool :=
  match s with
  | "" => None
  | String c s' => if Ascii.eqb c "." then Some false else if Ascii.eqb c ":" then Some true else first_sep s'
  end.

Lemma parse_ip_loop_sep : forall w s, parse_ip_loop w s =
  match first_sep s with None => Ok None | Some false => parse_ipv4 w | Some true => parse_ipv6 w end.
Proof.
  intros w s; induction s as [|c s IH]; simpl; [reflexivity|].
  destruct (Ascii.eqb c "."); [reflexivity|]. destruct (Ascii.eqb c ":"); [reflexivity|exact IH].
Qed.

Lemma hex_sep : forall t n r, hexadecimal t n -> first_sep (t +++ r) = first_sep r.
Proof.
  intros t n r H. apply numeral_digits in H as [_ H].
  induction H as [n|n0 c d t n Hd H IH]; [reflexivity|]. simpl.
  destruct (Ascii.eqb c ".") eqn:E1.
  { apply Ascii.eqb_eq in E1; subst c. exfalso. apply (no_digit_sep16 "." "" (or_introl eq_refl) d Hd). }
  destruct (Ascii.eqb c ":") eqn:E2.
  { apply Ascii.eqb_eq in E2; subst c. exfalso. apply (no_digit_sep16 ":" "" (or_intror eq_refl) d Hd). }
  exact IH.
Qed.

Lemma dec_sep : forall t n r, decimal t n -> first_sep (t +++ r) = first_sep r.
Proof.
  intros t n r H. apply numeral_digits in H as [_ H].
  induction H as [n|n0 c d t n Hd H IH]; [reflexivity|]. simpl. apply d16_dec in Hd.
  destruct (Ascii.eqb c ".") eqn:E1.
  { apply Ascii.eqb_eq in E1; subst c. exfalso. apply (no_digit_sep16 "." "" (or_introl eq_refl) d Hd). }
  destruct (Ascii.eqb c ":") eqn:E2.
  { apply Ascii.eqb_eq in E2; subst c. exfalso. apply (no_digit_sep16 ":" "" (or_intror eq_refl) d Hd). }
  exact IH.
Qed.

Lemma quad_sep : forall s q, quad s q -> first_sep s = Some false.
Proof. intros s q H; inversion H; subst. erewrite dec_sep by eassumption. reflexivity. Qed.

Lemma groups_sep : forall s bs, groups s bs -> length bs = 2 \/ first_sep s = Some true.
Proof.
  intros s bs H; inversion H; subst; [left; reflexivity|right].
  erewrite hex_sep by eassumption. reflexivity.
Qed.
Lemma groups_sep2 : forall s bs r, groups s bs -> first_sep (s +++ "::" +++ r) = Some true.
Proof.
  intros s bs r H; inversion H; subst; rewrite ?append_assoc; erewrite hex_sep by eassumption; reflexivity.
Qed.

Lemma v6_sep : forall s x, v6_text s x -> first_sep s = Some true.
Proof.
  intros s x H; inversion H as [? ? Hg Hl|sl sr bl br Hsl Hsr Hl]; subst.
  - inversion Hg as [? ? Hg'|? ? Hq|? ? ? ? Hh ? ?]; subst.
    + destruct (groups_sep _ _ Hg'); [lia|assumption].
    + inversion Hq; subst; discriminate.
    + erewrite hex_sep by eassumption; reflexivity.
  - inversion Hsl as [|? ? Hg]; subst; [reflexivity|]. eapply groups_sep2; eassumption.
Qed.

Lemma parse_ip_spec : forall s, exists o, parse_ip s = Ok o /\ (forall x, o = Some x <-> v4_text s x \/ v6_text s x).
Proof.
  intros s. unfold parse_ip. rewrite parse_ip_loop_sep.
  destruct (first_sep s) as [[]|] eqn:E.
  - destruct (parse_ipv6_spec s) as [o [Ho Hspec]]. exists o. split; [exact Ho|]. intros x. rewrite Hspec.
    split; [right; assumption|]. intros [[q [Hq _]]|H]; [|exact H]. apply quad_sep in Hq. congruence.
  - destruct (parse_ipv4_spec s) as [o [Ho Hspec]]. exists o. split; [exact Ho|]. intros x. rewrite Hspec.
    split; [left; assumption|]. intros [H|H]; [exact H|]. apply v6_sep in H. congruence.
  - exists None. split; [reflexivity|]. intros x; split; [discriminate|].
    intros [[q [Hq _]]|H]; [apply quad_sep in Hq|apply v6_sep in H]; congruence.
Qed.

(* ----------------------------------------------------- byte strings as numbers *)

Lemma number_snoc : forall l x, number (l ++ [x]) = (number l * 256 + x)%Z.
Proof. intros l x. unfold number. rewrite fold_left_app. reflexivity. Qed.

Lemma bytes_snoc : forall l x, bytes (l ++ [x]) <-> bytes l /\ (0 <= x <= 255)%Z.
Proof.
  intros l x; unfold bytes; split.
  - intros H; split; [intros b Hb; apply H; apply in_or_app; left; exact Hb|apply H; apply in_or_app; right; left; reflexivity].
  - intros [H Hx] b Hb. apply in_app_or in Hb as [Hb|[<-|[]]]; [apply H; exact Hb|exact Hx].
Qed.

Lemma pow256 : forall n, (256 ^ Z.of_nat (S n) = 256 ^ Z.of_nat n * 256)%Z.
Proof. intros n. rewrite Nat2Z.inj_succ, Z.pow_succ_r by lia. ring. Qed.

Lemma number_bound : forall l, bytes l -> (0 <= number l < 256 ^ Z.of_nat (length l))%Z.
Proof.
  intros l; induction l as [|x l IH] using rev_ind; intros H.
  - unfold number; simpl; lia.
  - apply bytes_snoc in H as [H Hx]. specialize (IH H). rewrite number_snoc, app_length, Nat.add_1_r, pow256.
    cbn [length] in *. lia.
Qed.

Lemma number_cons : forall x l, number (x :: l) = (x * 256 ^ Z.of_nat (length l) + number l)%Z.
Proof.
  intros x l; induction l as [|y l IH] using rev_ind.
  - unfold number; simpl; lia.
  - change (x :: l ++ [y]) with ((x :: l) ++ [y]). rewrite !number_snoc, app_length, Nat.add_1_r, pow256, IH. ring.
Qed.

Lemma number_app : forall a b, number (a ++ b) = (number a * 256 ^ Z.of_nat (length b) + number b)%Z.
Proof.
  intros a b; induction b as [|y b IH] using rev_ind.
  - rewrite app_nil_r. change (number []) with 0%Z. simpl (length []). rewrite Z.pow_0_r. lia.
  - rewrite app_assoc, !number_snoc, IH, app_length, Nat.add_1_r, pow256. ring.
Qed.

Lemma number_inj : forall a b, length a = length b -> bytes a -> bytes b -> number a = number b -> a = b.
Proof.
  intros a; induction a as [|x a IH] using rev_ind; intros b Hl Ha Hb Hn.
  - destruct b; [reflexivity|discriminate].
  - destruct (snoc_case _ b) as [b' [y ->]]; [intros ->; rewrite app_length in Hl; simpl in Hl; lia|].
    rewrite !app_length in Hl; simpl in Hl. apply bytes_snoc in Ha as [Ha Hx]. apply bytes_snoc in Hb as [Hb Hy].
    rewrite !number_snoc in Hn. assert (x = y /\ number a = number b') as [-> Hn'] by lia.
    rewrite (IH b' ltac:(lia) Ha Hb Hn'). reflexivity.
Qed.

(* Bits of a number whose low 8 bits are x. *)
Lemma byte_bits : forall a x i, (0 <= x < 256)%Z -> (0 <= i)%Z ->
  Z.testbit (a * 256 + x) i = if (i <? 8)%Z then Z.testbit x i else Z.testbit a (i - 8).
Proof.
  intros a x i Hx Hi. destruct (i <? 8)%Z eqn:E.
  - rewrite <- (Z.mod_pow2_bits_low (a * 256 + x) 8 i) by lia. rewrite <- (Z.mod_pow2_bits_low x 8 i) by lia.
    f_equal. change (2 ^ 8)%Z with 256%Z. lia.
  - replace i with ((i - 8) + 8)%Z at 1 by lia. rewrite <- Z.div_pow2_bits by lia.
    f_equal. change (2 ^ 8)%Z with 256%Z. lia.
Qed.

Lemma land_byte : forall x y, (0 <= x < 256)%Z -> (0 <= y < 256)%Z -> (0 <= Z.land x y < 256)%Z.
Proof.
  intros x y Hx Hy. split; [apply Z.land_nonneg; lia|].
  destruct (Z.eq_dec (Z.land x y) 0) as [->|Hn]; [lia|].
  assert (Hp : (0 < Z.land x y)%Z) by (pose proof (proj2 (Z.land_nonneg x y)); lia).
  destruct (Z.eq_dec x 0) as [->|Hx0]; [rewrite Z.land_0_l in Hn; congruence|].
  destruct (Z.eq_dec y 0) as [->|Hy0]; [rewrite Z.land_0_r in Hn; congruence|].
  change 256%Z with (2 ^ 8)%Z. apply Z.log2_lt_pow2; [exact Hp|].
  pose proof (Z.log2_land x y ltac:(lia) ltac:(lia)).
  assert (Z.log2 x < 8)%Z by (apply Z.log2_lt_pow2; lia). lia.
Qed.

Lemma land_snoc : forall a b x y, (0 <= x < 256)%Z -> (0 <= y < 256)%Z ->
  Z.land (a * 256 + x) (b * 256 + y) = (Z.land a b * 256 + Z.land x y)%Z.
Proof.
  intros a b x y Hx Hy. apply Z.bits_inj'. intros i Hi.
  rewrite Z.land_spec, !byte_bits by (try assumption; apply land_byte; assumption).
  destruct (i <? 8)%Z; rewrite Z.land_spec; reflexivity.
Qed.

Lemma length_and : forall a b, length a = length b -> length (and_bytes a b) = length a.
Proof. intros a b H. unfold and_bytes. rewrite map_length, combine_length. lia. Qed.

Lemma and_snoc : forall a b x y, length a = length b -> and_bytes (a ++ [x]) (b ++ [y]) = and_bytes a b ++ [Z.land x y].
Proof.
  intros a; induction a as [|p a IH]; intros [|q b] x y H; try discriminate; [reflexivity|].
  simpl. unfold and_bytes in *. simpl. f_equal. apply IH. simpl in H; lia.
Qed.

Lemma bytes_and : forall a b, bytes a -> bytes b -> bytes (and_bytes a b).
Proof.
  intros a b Ha Hb z Hz. unfold and_bytes in Hz. apply in_map_iff in Hz as [[x y] [<- Hin]]. simpl.
  pose proof (in_combine_l _ _ _ _ Hin) as Hx. pose proof (in_combine_r _ _ _ _ Hin) as Hy.
  apply Ha in Hx. apply Hb in Hy. pose proof (land_byte x y). lia.
Qed.

Lemma number_and : forall a b, length a = length b -> bytes a -> bytes b ->
  number (and_bytes a b) = Z.land (number a) (number b).
Proof.
  intros a; induction a as [|x a IH] using rev_ind; intros b Hl Ha Hb.
  - destruct b; [reflexivity|discriminate].
  - destruct (snoc_case _ b) as [b' [y ->]]; [intros ->; rewrite app_length in Hl; simpl in Hl; lia|].
    rewrite !app_length in Hl; simpl in Hl. apply bytes_snoc in Ha as [Ha Hx]. apply bytes_snoc in Hb as [Hb Hy].
    rewrite and_snoc by lia. rewrite !number_snoc. rewrite land_snoc by lia. rewrite IH by (try assumption; lia). reflexivity.
Qed.

(* A number below 2^w, masked with w-h leading ones. *)
Lemma land_mask : forall a w h, (0 <= h <= w)%Z -> (0 <= a < 2 ^ w)%Z ->
  Z.land a (2 ^ w - 2 ^ h) = (a - a mod 2 ^ h)%Z.
Proof.
  intros a w h Hh Ha.
  assert (E1 : (2 ^ w - 2 ^ h)%Z = Z.shiftl (Z.ones (w - h)) h).
  { rewrite Z.shiftl_mul_pow2 by lia. rewrite Z.ones_equiv. unfold Z.pred.
    replace w with ((w - h) + h)%Z at 1 by lia. rewrite Z.pow_add_r by lia. ring. }
  assert (E2 : (a - a mod 2 ^ h)%Z = Z.shiftl (Z.shiftr a h) h).
  { rewrite Z.shiftl_mul_pow2, Z.shiftr_div_pow2 by lia.
    pose proof (Z.div_mod a (2 ^ h) ltac:(apply Z.pow_nonzero; lia)). lia. }
  rewrite E1, E2. apply Z.bits_inj'. intros i Hi. rewrite Z.land_spec.
  destruct (Z_lt_ge_dec i h) as [Hlt|Hge].
  - rewrite !Z.shiftl_spec_low by lia. apply andb_false_r.
  - rewrite !Z.shiftl_spec by lia. rewrite Z.shiftr_spec by lia. replace (i - h + h)%Z with i by lia.
    destruct (Z_lt_ge_dec i w) as [Hiw|Hiw].
    + rewrite Z.ones_spec_low by lia. apply andb_true_r.
    + assert (Hf : Z.testbit a i = false).
      { destruct (Z.eq_dec a 0) as [->|Hn]; [apply Z.bits_0|]. apply Z.bits_above_log2; [lia|].
        assert (Z.log2 a < w)%Z by (apply Z.log2_lt_pow2; lia). lia. }
      rewrite Hf. reflexivity.
Qed.

(* --------------------------------------------------------------------- masks *)

Lemma length_mask : forall l n, length (cidr_mask l n) = l.
Proof. intros l; induction l as [|l IH]; intros n; simpl; [reflexivity|]. destruct n as [|[|[|[|[|[|[|[|n]]]]]]]]; simpl; rewrite IH; reflexivity. Qed.

Lemma mask_zero : forall l, number (cidr_mask l 0) = 0%Z.
Proof.
  intros l; induction l as [|l IH]; [reflexivity|].
  change (cidr_mask (S l) 0) with ((255 - 255 / 2 ^ 0)%Z :: cidr_mask l 0). rewrite number_cons, IH. reflexivity.
Qed.

Lemma bytes_cons : forall x l, (0 <= x <= 255)%Z -> bytes l -> bytes (x :: l).
Proof. intros x l Hx Hl b [<-|Hb]; [exact Hx|apply Hl; exact Hb]. Qed.

Lemma partial_byte : forall n, n < 8 ->
  (0 <= 255 - 255 / 2 ^ Z.of_nat n <= 255 /\ 255 - 255 / 2 ^ Z.of_nat n = 256 - 2 ^ (8 - Z.of_nat n))%Z.
Proof. intros n H. do 8 (destruct n as [|n]; [vm_compute; repeat split; discriminate|]). lia. Qed.

Lemma bytes_mask : forall l n, bytes (cidr_mask l n).
Proof.
  intros l; induction l as [|l IH]; intros n; [intros b []|]. cbn [cidr_mask].
  destruct (8 <=? n) eqn:E; apply bytes_cons; try apply IH; [lia|]. apply partial_byte; lia.
Qed.

Lemma number_mask : forall l n, n <= 8 * l ->
  number (cidr_mask l n) = (2 ^ (8 * Z.of_nat l) - 2 ^ (8 * Z.of_nat l - Z.of_nat n))%Z.
Proof.
  assert (P : forall m, (256 ^ Z.of_nat m = 2 ^ (8 * Z.of_nat m))%Z).
  { intros m. rewrite Z.pow_mul_r by lia. reflexivity. }
  intros l; induction l as [|l IH]; intros n Hn.
  - assert (n = 0) as -> by lia. reflexivity.
  - cbn [cidr_mask]. destruct (8 <=? n) eqn:E; rewrite number_cons, length_mask, P.
    + rewrite IH by lia. replace (8 * Z.of_nat (S l))%Z with (8 + 8 * Z.of_nat l)%Z by lia.
      replace (8 + 8 * Z.of_nat l - Z.of_nat n)%Z with (8 * Z.of_nat l - Z.of_nat (n - 8))%Z by lia.
      rewrite (Z.pow_add_r 2 8) by lia. change (2 ^ 8)%Z with 256%Z. ring.
    + rewrite mask_zero. destruct (partial_byte n ltac:(lia)) as [_ ->].
      replace (8 * Z.of_nat (S l) - Z.of_nat n)%Z with ((8 - Z.of_nat n) + 8 * Z.of_nat l)%Z by lia.
      replace (8 * Z.of_nat (S l))%Z with (8 + 8 * Z.of_nat l)%Z by lia.
      rewrite !Z.pow_add_r by lia. change (2 ^ 8)%Z with 256%Z. ring.
Qed.

(* ------------------------------------------------------------------ ParseCIDR *)

Lemma index_byte_spec : forall s c n, index_byte s c = Some n ->
  exists a b, s = (a +++ String c b) /\ String.length a = n /\ index_byte a c = None.
Proof.
  intros s c; induction s as [|d s IH]; simpl; intros n H; [discriminate|].
  destruct (Ascii.eqb d c) eqn:E.
  - apply Ascii.eqb_eq in E; subst d. inversion H; subst. exists "", s. repeat split.
  - destruct (index_byte s c) as [m|]; [|discriminate]. simpl in H. inversion H; subst.
    destruct (IH m eq_refl) as [a [b [-> [Hl Ha]]]]. exists (String d a), b. simpl. rewrite E, Ha, Hl. repeat split.
Qed.

Lemma index_byte_app : forall a c b, index_byte a c = None -> index_byte (a +++ String c b) c = Some (String.length a).
Proof.
  intros a c b; induction a as [|d a IH]; simpl; intros H; [rewrite Ascii.eqb_refl; reflexivity|].
  destruct (Ascii.eqb d c); [discriminate|]. destruct (index_byte a c); [discriminate|]. rewrite IH by reflexivity. reflexivity.
Qed.

Lemma index_none_app : forall a b c, index_byte a c = None -> index_byte b c = None -> index_byte (a +++ b) c = None.
Proof.
  intros a b c; induction a as [|d a IH]; simpl; intros Ha Hb; [exact Hb|].
  destruct (Ascii.eqb d c); [discriminate|]. destruct (index_byte a c); [discriminate|]. rewrite IH by (reflexivity || exact Hb). reflexivity.
Qed.

(* No address text contains a slash. *)
Lemma hex_slash : forall t n, hexadecimal t n -> index_byte t "/" = None.
Proof.
  intros t n H. apply numeral_digits in H as [_ H].
  induction H as [n|n0 c d t n Hd H IH]; [reflexivity|]. simpl.
  destruct (Ascii.eqb c "/") eqn:E; [|rewrite IH; reflexivity].
  apply Ascii.eqb_eq in E; subst c. exfalso. change (byte_of "/") with 47%Z in *.
  inversion Hd as [? ? Hd'|? ? Hr He|? ? Hr He]; subst; [inversion Hd' as [? ? Hr He]; subst|..];
    change (byte_of "/") with 47%Z in He; lia.
Qed.
Lemma dec_slash : forall t n, decimal t n -> index_byte t "/" = None.
Proof.
  intros t n H. apply numeral_digits in H as [_ H].
  induction H as [n|n0 c d t n Hd H IH]; [reflexivity|]. simpl.
  destruct (Ascii.eqb c "/") eqn:E; [|rewrite IH; reflexivity].
  apply Ascii.eqb_eq in E; subst c. exfalso.
  inversion Hd as [? ? Hr He]; subst. change (byte_of "/") with 47%Z in He; lia.
Qed.
Lemma quad_slash : forall s q, quad s q -> index_byte s "/" = None.
Proof.
  intros s q H; inversion H; subst.
  repeat (apply index_none_app; [first [eapply dec_slash; eassumption|reflexivity]|]). eapply dec_slash; eassumption.
Qed.
Lemma groups_slash : forall s bs, groups s bs -> index_byte s "/" = None.
Proof.
  intros s bs H; induction H; [eapply hex_slash; eassumption|].
  apply index_none_app; [eapply hex_slash; eassumption|]. apply index_none_app; [reflexivity|assumption].
Qed.
Lemma groups4_slash : forall s bs, groups4 s bs -> index_byte s "/" = None.
Proof.
  intros s bs H; induction H; [eapply groups_slash; eassumption|eapply quad_slash; eassumption|].
  apply index_none_app; [eapply hex_slash; eassumption|]. apply index_none_app; [reflexivity|assumption].
Qed.
Lemma v6_slash : forall s x, v6_text s x -> index_byte s "/" = None.
Proof.
  intros s x H; inversion H as [? ? Hg Hl|sl sr bl br Hsl Hsr Hl]; subst; [eapply groups4_slash; eassumption|].
  apply index_none_app; [inversion Hsl; subst; [reflexivity|eapply groups_slash; eassumption]|].
  apply index_none_app; [reflexivity|]. inversion Hsr; subst; [reflexivity|eapply groups4_slash; eassumption].
Qed.

Lemma append_empty : forall a b, (a +++ b) = a -> b = "".
Proof. intros a b; induction a as [|c a IH]; simpl; intros H; [exact H|]. inversion H. auto. Qed.

Lemma from_after : forall a c b, from (a +++ String c b) (String.length a + 1) = Ok b.
Proof. intros a c b; induction a as [|x a IH]; simpl; [destruct b; reflexivity|exact IH]. Qed.

(* dtoi on a whole text. *)
Lemma dtoi_whole : forall m n j, dtoi m = (n, j, true) -> j = String.length m -> decimal m n.
Proof.
  intros m n j H Hj. apply dtoi_sound in H as [t [r [-> [-> [Hd _]]]]].
  rewrite length_append in Hj. destruct r; [rewrite append_nil_r; exact Hd|simpl in Hj; lia].
Qed.

Lemma quad_bytes : forall s q, quad s q -> bytes q /\ length q = 4.
Proof.
  intros s q H; inversion H as [? ? ? ? a b c d Ha Hb Hc Hd]; subst. split; [|reflexivity].
  apply decimal_pos in Ha, Hb, Hc, Hd. intros x [<-|[<-|[<-|[<-|[]]]]]; lia.
Qed.
Lemma groups_bytes : forall s bs, groups s bs -> bytes bs.
Proof.
  intros s bs H; induction H as [s n Hh Hn|s n r bs Hh Hn Hg IH]; apply hexadecimal_pos in Hh;
    repeat apply bytes_cons; try assumption; try lia. intros b [].
Qed.
Lemma groups4_bytes : forall s bs, groups4 s bs -> bytes bs.
Proof.
  intros s bs H; induction H as [s bs Hg|s bs Hq|s n r bs Hh Hn Hg IH].
  - eapply groups_bytes; eassumption.
  - eapply quad_bytes; eassumption.
  - apply hexadecimal_pos in Hh. repeat apply bytes_cons; try assumption; lia.
Qed.
Lemma bytes_app : forall a b, bytes a -> bytes b -> bytes (a ++ b).
Proof. intros a b Ha Hb x Hx. apply in_app_or in Hx as [Hx|Hx]; [apply Ha|apply Hb]; exact Hx. Qed.
Lemma bytes_zeros : forall n, bytes (repeat 0%Z n).
Proof. intros n b Hb. apply repeat_spec in Hb; subst; lia. Qed.
Lemma v6_bytes : forall s x, v6_text s x -> bytes x /\ length x = 16.
Proof.
  intros s x H; inversion H as [? ? Hg Hl|sl sr bl br Hsl Hsr Hl]; subst.
  - split; [eapply groups4_bytes; eassumption|exact Hl].
  - split.
    + repeat apply bytes_app; [|apply bytes_zeros|].
      * inversion Hsl; subst; [intros b []|eapply groups_bytes; eassumption].
      * inversion Hsr; subst; [intros b []|eapply groups4_bytes; eassumption].
    + rewrite !app_length, repeat_length. lia.
Qed.

Lemma v4_v6_disjoint : forall s x y, v4_text s x -> v6_text s y -> False.
Proof. intros s x y [q [Hq _]] Hy. apply quad_sep in Hq. apply v6_sep in Hy. congruence. Qed.

(* The network of a width-l address: its bytes a masked with n leading ones. *)
Lemma mask_net : forall a l n, bytes a -> length a = l -> n <= 8 * l ->
  number (and_bytes a (cidr_mask l n)) = (number a - number a mod 2 ^ (8 * Z.of_nat l - Z.of_nat n))%Z.
Proof.
  intros a l n Hb Hl Hn. rewrite number_and by (try apply bytes_mask; try assumption; rewrite length_mask; exact Hl).
  rewrite number_mask by exact Hn. apply land_mask; [lia|].
  pose proof (number_bound a Hb) as H. rewrite Hl in H. rewrite Z.pow_mul_r by lia. exact H.
Qed.

Lemma list_eqb_refl : forall a, list_eqb a a = true.
Proof. intros a; unfold list_eqb. destruct (list_eq_dec Z.eq_dec a a); congruence. Qed.

Lemma ip_mask_v4 : forall q n, length q = 4 -> ip_mask (v4_prefix ++ q) (cidr_mask 4 n) = Some (and_bytes q (cidr_mask 4 n)).
Proof.
  intros q n H. unfold ip_mask. rewrite length_mask. change (4 =? 16) with false. cbn [andb].
  rewrite length_mask. change (4 =? 4) with true. rewrite app_length, H. change (length v4_prefix + 4 =? 16) with true. cbn [andb].
  replace (firstn 12 (v4_prefix ++ q)) with v4_prefix by reflexivity. rewrite list_eqb_refl.
  change (skipn 12 (v4_prefix ++ q)) with q. rewrite H. reflexivity.
Qed.
Lemma ip_mask_v6 : forall a n, length a = 16 -> ip_mask a (cidr_mask 16 n) = Some (and_bytes a (cidr_mask 16 n)).
Proof.
  intros a n H. unfold ip_mask. rewrite length_mask, H. change (16 =? 4) with false. rewrite andb_false_r. cbn [andb].
  rewrite length_mask. change (16 =? 4) with false. cbn [andb]. rewrite H. reflexivity.
Qed.

(* What parse_cidr computes, in terms of the texts. *)
Lemma parse_cidr_cases : forall s, (exists m, parse_cidr s = Err m) \/
  (exists addr p n ip w q, s = (addr +++ "/" +++ p) /\ decimal p n /\ (n <= 8 * Z.of_nat w)%Z /\
     (w = 4 /\ quad addr q /\ ip = v4_prefix ++ q \/ w = 16 /\ v6_text addr q /\ ip = q) /\
     parse_cidr s = Ok (ip, mkNet (Some (and_bytes q (cidr_mask w (Z.to_nat n)))) (cidr_mask w (Z.to_nat n)))).
Proof.
  intros s. unfold parse_cidr. destruct (index_byte s "/") as [i|] eqn:Ei; [|left; eexists; reflexivity].
  apply index_byte_spec in Ei as [a [b [-> [<- Ha]]]].
  rewrite upto_append. cbn [bindr].
  rewrite from_after. cbn [bindr].
  destruct (parse_ipv4_spec a) as [o4 [-> H4]]. cbn [bindr].
  destruct (parse_ipv6_spec a) as [o6 [E6 H6]]. rewrite E6.
  destruct (dtoi b) as [[n j] ok] eqn:Ed.
  destruct o4 as [ip4|]; cbn [bindr].
  - destruct (negb ok || negb (j =? String.length b) || (n <? 0)%Z || (8 * Z.of_nat 4 <? n)%Z) eqn:Eb; [left; eexists; reflexivity|].
    right. destruct (proj1 (H4 ip4) eq_refl) as [q [Hq ->]].
    destruct ok; [|discriminate]. cbn [negb orb] in Eb. assert (Hj : j = String.length b) by lia.
    exists a, b, n, (v4_prefix ++ q), 4, q. split; [reflexivity|]. split; [eapply dtoi_whole; eassumption|].
    split; [lia|]. split; [left; auto|]. rewrite ip_mask_v4 by (eapply quad_bytes; eassumption). reflexivity.
  - destruct o6 as [ip6|]; [|left; eexists; reflexivity].
    destruct (negb ok || negb (j =? String.length b) || (n <? 0)%Z || (8 * Z.of_nat 16 <? n)%Z) eqn:Eb; [left; eexists; reflexivity|].
    right. pose proof (proj1 (H6 ip6) eq_refl) as Hq.
    destruct ok; [|discriminate]. cbn [negb orb] in Eb. assert (Hj : j = String.length b) by lia.
    exists a, b, n, ip6, 16, ip6. split; [reflexivity|]. split; [eapply dtoi_whole; eassumption|].
    split; [lia|]. split; [right; auto|]. rewrite ip_mask_v6 by (eapply v6_bytes; eassumption). reflexivity.
Qed.

Lemma parse_cidr_complete : forall addr p n ip w q, decimal p n -> (n <= 8 * Z.of_nat w)%Z ->
  (w = 4 /\ quad addr q /\ ip = v4_prefix ++ q \/ w = 16 /\ v6_text addr q /\ ip = q) ->
  parse_cidr (addr +++ "/" +++ p) = Ok (ip, mkNet (Some (and_bytes q (cidr_mask w (Z.to_nat n)))) (cidr_mask w (Z.to_nat n))).
Proof.
  intros addr p n ip w q Hp Hn Hq.
  assert (Hs : index_byte addr "/" = None) by (destruct Hq as [[_ [Hq _]]|[_ [Hq _]]]; [eapply quad_slash|eapply v6_slash]; eassumption).
  unfold parse_cidr. change (addr +++ "/" +++ p) with (addr +++ String "/" p). rewrite index_byte_app by exact Hs.
  rewrite upto_append. cbn [bindr].
  rewrite from_after. cbn [bindr].
  destruct (parse_ipv4_spec addr) as [o4 [-> H4]]. cbn [bindr].
  destruct (parse_ipv6_spec addr) as [o6 [E6 H6]]. rewrite E6.
  pose proof (decimal_pos _ _ Hp) as Hpos.
  assert (Hd : dtoi p = (n, String.length p, true)).
  { rewrite <- (append_nil_r p) at 1. apply dtoi_complete; [exact Hp| |exact I].
    destruct Hq as [[-> _]|[-> _]]; unfold big; lia. }
  rewrite Hd.
  destruct Hq as [[-> [Hq ->]]|[-> [Hq ->]]].
  - assert (o4 = Some (v4_prefix ++ q)) as -> by (apply H4; exists q; auto). cbn [bindr].
    replace (negb true || negb (String.length p =? String.length p) || (n <? 0)%Z || (8 * Z.of_nat 4 <? n)%Z) with false by lia.
    rewrite ip_mask_v4 by (eapply quad_bytes; eassumption). reflexivity.
  - assert (o6 = Some q) as -> by (apply H6; exact Hq).
    destruct o4 as [ip4|].
    + exfalso. eapply v4_v6_disjoint; [apply H4; reflexivity|exact Hq].
    + cbn [bindr]. replace (negb true || negb (String.length p =? String.length p) || (n <? 0)%Z || (8 * Z.of_nat 16 <? n)%Z) with false by lia.
      rewrite ip_mask_v6 by (eapply v6_bytes; eassumption). reflexivity.
Qed.

Lemma decimal_unique : forall p n n', decimal p n -> decimal p n' -> n = n'.
Proof.
  intros p n n' H H'. apply numeral_digits in H as [_ D1]. apply numeral_digits in H' as [_ D2].
  revert n' D2. induction D1 as [k|k c d t k' Hd D IH]; intros n' D2; inversion D2 as [|? ? d2 ? ? Hd2 D2']; subst; [reflexivity|].
  inversion Hd as [? ? ? Hb]; inversion Hd2 as [? ? ? Hb2]; subst. assert (d = d2) as <- by lia. apply IH; assumption.
Qed.
