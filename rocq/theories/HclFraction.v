(* Fractions through HCL text. *)

From Verif Require Import Base CtyModel CtySpec CtyProofs CtyProofs2 HclModel HclSpec HclNumber
  HclDecode HclParse PlainScan HclScan HclRound.
From Coq Require Import Lia ZifyBool.
Local Open Scope nat_scope.

(* ----- reading ----- *)

Lemma all_chars_app : forall p a b, all_chars p (a +++ b) = (all_chars p a && all_chars p b)%bool.
Proof.
  intros p a b. induction a as [|c a IH]; [reflexivity|]. cbn [String.append all_chars]. rewrite IH. apply andb_assoc.
Qed.

Lemma digits_app : forall a b z, digits_from z (a +++ b) = digits_from (digits_from z a) b.
Proof. induction a as [|c a IH]; intros b z; [reflexivity|]. cbn. apply IH. Qed.

Lemma scan_num_digits : forall a z s, all_chars digit_char a = true ->
  scan (LNum z) (a +++ s) = scan (LNum (digits_from z a)) s.
Proof.
  induction a as [|c a IH]; intros z s H; [reflexivity|]. cbn [all_chars] in H. apply andb_true_iff in H as [H1 H2].
  cbn [String.append]. rewrite scan_cons. cbn [step]. rewrite H1. cbn [bindr fst snd app].
  rewrite IH by exact H2. cbn [digits_from]. unfold digit_value. destruct (scan _ s); reflexivity.
Qed.
Lemma scan_dec_many : forall b m k s, all_chars digit_char b = true ->
  scan (LDec m k) (b +++ s) = scan (LDec (digits_from m b) (k + String.length b)) s.
Proof.
  induction b as [|c b IH]; intros m k s H; [cbn; rewrite Nat.add_0_r; reflexivity|].
  cbn [all_chars] in H. apply andb_true_iff in H as [H1 H2].
  cbn [String.append]. rewrite scan_cons. cbn [step]. rewrite H1. cbn [bindr fst snd app].
  rewrite IH by exact H2. cbn [digits_from String.length]. unfold digit_value. rewrite Nat.add_succ_r.
  destruct (scan _ s); reflexivity.
Qed.

Lemma digit_not_start : forall c, digit_char c = true -> ident_start c = false.
Proof. intros c. destruct c as [[][][][][][][][]]; vm_compute; intros H; first [reflexivity|discriminate H]. Qed.

Lemma scans_decimal : forall t m k, decimal_text t m k -> scans t [TDec m k].
Proof.
  intros t m k (a & b & -> & Na & Nb & H & -> & ->) [|d s] D; [contradiction|].
  rewrite all_chars_app in H. apply andb_true_iff in H as [Ha Hb].
  destruct a as [|c a]; [congruence|]. cbn [all_chars] in Ha. apply andb_true_iff in Ha as [Hc Ha].
  rewrite !append_assoc. cbn [String.append]. rewrite scan_cons. cbn [step]. unfold step0.
  rewrite (digit_not_start c Hc), Hc. cbn [bindr fst snd app]. rewrite scan_num_digits by exact Ha.
  change ("." +++ b +++ String d s) with (String "." (b +++ String d s)).
  rewrite scan_cons. cbn [step]. change (digit_char ".") with false. change (Ascii.eqb "." ".") with true.
  cbn [bindr fst snd app].
  destruct b as [|e b]; [congruence|].
  assert (Hb0 := Hb). cbn [all_chars] in Hb. apply andb_true_iff in Hb as [He Hb].
  change (String e b +++ String d s) with (String e (b +++ String d s)).
  rewrite scan_point by exact He. change (String e (b +++ String d s)) with (String e b +++ String d s).
  rewrite scan_dec_many by exact Hb0. cbn [String.append digits_from]. rewrite digits_app.
  cbn [digits_from]. unfold digit_value.
  rewrite scan_dec_end by exact D. cbn [Nat.add]. destruct (scan LNone (String d s)); reflexivity.
Qed.

Lemma doc_decimal : forall k t m j, body_key k -> scans t [TDec m j] -> good_expr (EDec m j) ->
  decode_map (doc_text [k +++ " = " +++ t]) = do v <- cty_number_to_native (decimal m j); Ok (NMap [(k, v)]).
Proof.
  intros k t m j K Hs G. rewrite (doc_reads _ [IAttr k (EDec m j)]).
  - unfold decode_body, body_attrs, body_blocks. cbn [flat_map app attrs_native expr_native].
    destruct (cty_number_to_native (decimal m j)); reflexivity.
  - constructor; [|constructor]. exists (" = " +++ t), [TIdent k; TEq; TDec m j]. split; [reflexivity|]. split; [apply K|].
    split; [apply scans_line; [apply K|exact Hs]|]. split; [apply (it_attr k (EDec m j) [TDec m j]); constructor|constructor; exact G].
  - discriminate.
  - cbn. constructor; [intros []|constructor].
Qed.

Theorem decimal_read : forall k t m j, body_key k -> decimal_text t m j -> (m <= (2 ^ 63 - 1) * 10 ^ Z.of_nat j)%Z ->
  exists v, decode_map (doc_text [k +++ " = " +++ t]) = Ok (NMap [(k, v)]) /\ literal_native (decimal m j) v.
Proof.
  intros k t m j K T L.
  assert (M0 : (0 <= m)%Z).
  { destruct T as (a & b & _ & _ & _ & H & _ & ->). revert H. generalize (a +++ b). clear.
    assert (X : forall s z, (0 <= z)%Z -> all_chars digit_char s = true -> (0 <= digits_from z s)%Z).
    { induction s as [|c s IH]; intros z Hz H; [exact Hz|]. cbn [all_chars] in H. apply andb_true_iff in H as [H1 H2].
      cbn [digits_from]. apply IH; [|exact H2]. unfold digit_char, char_in in H1. apply andb_true_iff in H1 as [H1 _].
      apply Nat.leb_le in H1. lia. }
    intros s H. apply X; [lia|exact H]. }
  assert (G : good_expr (EDec m j)) by (constructor; lia).
  rewrite (doc_decimal k t m j K (scans_decimal t m j T) G).
  destruct (decimal_total m j) as (v & E); [lia|]. rewrite E. exists v. split; [reflexivity|]. apply literal_sound. exact E.
Qed.

(* ----- writing ----- *)

Lemma float_text_near : forall d, (0 < num d)%Z -> exists m, float_text d = six m /\ millionths d m /\ (0 <= m)%Z.
Proof.
  intros d Hp. unfold float_text, six, millionths. pose proof (CtyProofs.pow2_pos (den d)) as P.
  rewrite Z.abs_eq by lia. replace (num d <? 0)%Z with false by lia.
  set (a := (num d * 1000000)%Z). set (p := pow2 (den d)) in *.
  set (m := (if (p <? 2 * (a mod p))%Z || ((2 * (a mod p) =? p)%Z && Z.odd (a / p)) then (a / p + 1)%Z else (a / p)%Z)).
  exists m. split; [reflexivity|].
  pose proof (Z.div_mod a p ltac:(lia)) as D. pose proof (Z.mod_pos_bound a p P) as R.
  assert (Q : (0 <= a / p)%Z) by (apply Z.div_pos; unfold a; lia).
  unfold m. destruct (p <? 2 * (a mod p))%Z eqn:C1; cbn [orb].
  - split; [rewrite Z.mul_add_distr_r; lia|lia].
  - destruct (2 * (a mod p) =? p)%Z eqn:C2; cbn [andb]; [|split; lia].
    destruct (Z.odd (a / p)); split; try rewrite Z.mul_add_distr_r; lia.
Qed.

Lemma marshal_number : forall k v d x, v = NF32 d \/ v = NF64 d -> (0 < num d)%Z ->
  cty_number_to_native d = Ok (NF32 x) \/ cty_number_to_native d = Ok (NF64 x) ->
  marshal (NMap [(k, v)]) = Ok (Some (doc_text [k +++ " = " +++ float_text x])).
Proof.
  intros k v d x [->| ->] Hd [E|E]; unfold marshal; rewrite marshal_map; cbn [entries entry];
    cbn [loop_hash hash_kind is_hash_all Nat.leb andb is_nmr scalar_text]; rewrite E; reflexivity.
Qed.

Lemma bits_whole : forall z, (Z.abs z < 2 ^ 53)%Z -> representable float64 (mkD z 0).
Proof.
  intros z H. exists z, 0%Z. cbn [prec last_place bound float64 num den]. split; [exact H|]. split; [lia|]. split.
  - change (2 ^ Z.max 0 (- 0))%Z with 1%Z. change (2 ^ Z.max 0 0)%Z with 1%Z. change (2 ^ Z.of_nat 0)%Z with 1%Z. lia.
  - change (2 ^ Z.of_nat 0)%Z with 1%Z. rewrite Z.mul_1_r. eapply Z.lt_trans; [exact H|reflexivity].
Qed.

(* A fraction of float64 precision comes back as what its six decimals read as. *)
Theorem fraction_back : forall k v d, body_key k -> v = NF32 d \/ v = NF64 d ->
  (0 < num d)%Z -> ~ whole d -> representable float64 d ->
  exists x m t w, (number_native d (NF32 x) \/ (number_native d (NF64 x) /\ x = d)) /\ millionths x m
    /\ marshal (NMap [(k, v)]) = Ok (Some t) /\ decode_map t = Ok (NMap [(k, w)]) /\ literal_native (decimal m 6) w.
Proof.
  intros k v d K Hv Hd W R.
  destruct (number_frac d Hd W R) as (y & Ey & Dy & En).
  assert (X : exists x, (cty_number_to_native d = Ok (NF32 x) \/ cty_number_to_native d = Ok (NF64 x) /\ x = d)
    /\ (0 < num x)%Z /\ (num x <= 2 ^ 53 * pow2 (den x))%Z).
  { pose proof (frac_small d R W) as S. rewrite Z.abs_eq in S by lia.
    destruct (num d <=? num y)%Z eqn:C.
    - exists y. split; [left; exact En|]. split; [lia|].
      assert (R53 : representable float32 (mkD (2 ^ 53) 0)).
      { exists 1%Z, 53%Z. cbn [prec last_place bound float32 num den]. repeat split; try lia; vm_compute; reflexivity. }
      assert (L : le_num d (mkD (2 ^ 53) 0)) by (unfold le_num; cbn [num den]; change (pow2 0) with 1%Z; lia).
      pose proof (nearest_le _ _ _ _ (round_to_nearest _ _ _ good32 Ey) R53 L) as LL.
      unfold le_num in LL. cbn [num den] in LL. change (pow2 0) with 1%Z in LL. lia.
    - exists d. split; [right; split; [exact En|reflexivity]|]. split; [exact Hd|]. lia. }
  destruct X as (x & Ex & Px & Bx).
  destruct (float_text_near x Px) as (m & Et & Hm & M0).
  assert (MB : (m <= (2 ^ 63 - 1) * 10 ^ Z.of_nat 6)%Z).
  { unfold millionths in Hm. change (10 ^ Z.of_nat 6)%Z with 1000000%Z. pose proof (CtyProofs.pow2_pos (den x)) as P.
    assert (m * pow2 (den x) <= (2 ^ 53 * 1000000 + 1) * pow2 (den x))%Z by lia.
    apply Z.mul_le_mono_pos_r in H; lia. }
  assert (G : good_expr (EDec m 6)) by (constructor; lia).
  destruct (decimal_total m 6) as (w & Ew); [lia|].
  exists x, m, (doc_text [k +++ " = " +++ float_text x]), w.
  split; [|split; [exact Hm|split; [|split]]].
  - destruct Ex as [Ex|[Ex ->]]; [left|right; split; [|reflexivity]]; exact (number_native_ok _ _ R Ex).
  - apply (marshal_number k v d x Hv Hd). destruct Ex as [Ex|[Ex _]]; auto.
  - rewrite Et, (doc_decimal k (six m) m 6 K (scans_six m M0) G), Ew. reflexivity.
  - apply literal_sound. exact Ew.
Qed.

(* Plain fractions come back as they are, as float32. *)
Theorem plain_back : forall k v d, body_key k -> v = NF32 d \/ v = NF64 d -> plain_fraction d ->
  exists t x, marshal (NMap [(k, v)]) = Ok (Some t) /\ decode_map t = Ok (NMap [(k, NF32 x)]) /\ same_num d x.
Proof.
  intros k v d K Hv Hp. pose proof (plain_native d d Hp eq_refl) as E. destruct (plain_million d Hp) as (m & Em & Rm).
  assert (G : good_expr (EDec m 6)) by (constructor; lia).
  assert (S : same_num d (decimal m 6)).
  { apply decimal_exact; [apply bits_of_representable; apply Hp|]. exact Em. }
  exists (doc_text [k +++ " = " +++ float_text d]), (decimal m 6). split; [|split; [|exact S]].
  - apply (marshal_number k v d d Hv (proj1 Hp)). auto.
  - rewrite (float_text_plain d m (proj1 Hp) Em), (doc_decimal k (six m) m 6 K (scans_six m ltac:(lia)) G).
    rewrite (plain_native d (decimal m 6) Hp S). reflexivity.
Qed.
