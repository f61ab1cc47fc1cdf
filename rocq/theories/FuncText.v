(* Proofs about numerals and texts in the functions. *)

From Verif Require Import Base CtyModel FuncModel FuncSpec FuncProofs.
From Verif Require CtySpec CtyProofs.
From Coq Require Import Lia.

(* ----- digits ----- *)

Lemma ascii_nat : forall c n, nat_of_ascii c = n -> c = ascii_of_nat n.
Proof. intros c n <-. symmetry. apply ascii_nat_embedding. Qed.

Lemma digit_value_spec : forall base c x, digit_value base c = Some x <-> digit_of base c x.
Proof.
  intros base c x. unfold digit_value, char_in.
  assert (B : nat_of_ascii c < 256) by apply nat_ascii_bounded.
  set (n := nat_of_ascii c) in *. split.
  - intro H.
    destruct (Nat.leb 48 n && Nat.leb n 57) eqn:E1.
    { apply andb_true_iff in E1. destruct E1 as [L U]. apply Nat.leb_le in L, U.
      destruct (Z.of_nat n - 48 <? base)%Z eqn:Q; [|discriminate]. injection H as <-.
      rewrite (ascii_nat c (48 + (n - 48))) by (unfold n in *; lia).
      replace (Z.of_nat n - 48)%Z with (Z.of_nat (n - 48)) by lia. apply dg_digit; lia. }
    destruct (Nat.leb 97 n && Nat.leb n 122) eqn:E2.
    { apply andb_true_iff in E2. destruct E2 as [L U]. apply Nat.leb_le in L, U.
      destruct (Z.of_nat n - 97 + 10 <? base)%Z eqn:Q; [|discriminate]. injection H as <-.
      rewrite (ascii_nat c (97 + (n - 97))) by (unfold n in *; lia).
      replace (Z.of_nat n - 97 + 10)%Z with (10 + Z.of_nat (n - 97))%Z by lia. apply dg_small; lia. }
    destruct (Nat.leb 65 n && Nat.leb n 90) eqn:E3; [|discriminate].
    apply andb_true_iff in E3. destruct E3 as [L U]. apply Nat.leb_le in L, U.
    rewrite (ascii_nat c (65 + (n - 65))) by (unfold n in *; lia).
    destruct (base <=? 36)%Z eqn:B36.
    + destruct (Z.of_nat n - 65 + 10 <? base)%Z eqn:Q; [|discriminate]. injection H as <-.
      replace (Z.of_nat n - 65 + 10)%Z with (10 + Z.of_nat (n - 65))%Z by lia. apply dg_either; lia.
    + destruct (Z.of_nat n - 65 + 36 <? base)%Z eqn:Q; [|discriminate]. injection H as <-.
      replace (Z.of_nat n - 65 + 36)%Z with (36 + Z.of_nat (n - 65))%Z by lia. apply dg_capital; lia.
  - intro H. destruct H as [k K L|k K L|k K L M|k K L M]; unfold n; rewrite nat_ascii_embedding by lia; clear n B.
    + replace (Nat.leb 48 (48 + k) && Nat.leb (48 + k) 57) with true
        by (symmetry; apply andb_true_iff; split; apply Nat.leb_le; lia).
      replace (Z.of_nat (48 + k) - 48)%Z with (Z.of_nat k) by lia.
      replace (Z.of_nat k <? base)%Z with true by lia. reflexivity.
    + replace (Nat.leb 48 (97 + k) && Nat.leb (97 + k) 57) with false
        by (symmetry; apply andb_false_iff; right; apply Nat.leb_gt; lia).
      replace (Nat.leb 97 (97 + k) && Nat.leb (97 + k) 122) with true
        by (symmetry; apply andb_true_iff; split; apply Nat.leb_le; lia).
      replace (Z.of_nat (97 + k) - 97 + 10)%Z with (10 + Z.of_nat k)%Z by lia.
      replace (10 + Z.of_nat k <? base)%Z with true by lia. reflexivity.
    + replace (Nat.leb 48 (65 + k) && Nat.leb (65 + k) 57) with false
        by (symmetry; apply andb_false_iff; right; apply Nat.leb_gt; lia).
      replace (Nat.leb 97 (65 + k) && Nat.leb (65 + k) 122) with false
        by (symmetry; apply andb_false_iff; left; apply Nat.leb_gt; lia).
      replace (Nat.leb 65 (65 + k) && Nat.leb (65 + k) 90) with true
        by (symmetry; apply andb_true_iff; split; apply Nat.leb_le; lia).
      replace (base <=? 36)%Z with true by lia.
      replace (Z.of_nat (65 + k) - 65 + 10)%Z with (10 + Z.of_nat k)%Z by lia.
      replace (10 + Z.of_nat k <? base)%Z with true by lia. reflexivity.
    + replace (Nat.leb 48 (65 + k) && Nat.leb (65 + k) 57) with false
        by (symmetry; apply andb_false_iff; right; apply Nat.leb_gt; lia).
      replace (Nat.leb 97 (65 + k) && Nat.leb (65 + k) 122) with false
        by (symmetry; apply andb_false_iff; left; apply Nat.leb_gt; lia).
      replace (Nat.leb 65 (65 + k) && Nat.leb (65 + k) 90) with true
        by (symmetry; apply andb_true_iff; split; apply Nat.leb_le; lia).
      replace (base <=? 36)%Z with false by lia.
      replace (Z.of_nat (65 + k) - 65 + 36)%Z with (36 + Z.of_nat k)%Z by lia.
      replace (36 + Z.of_nat k <? base)%Z with true by lia. reflexivity.
Qed.

Lemma digits_spec : forall base s acc z, digits base acc s = Some z <->
  exists ds, Forall2 (digit_of base) (list_ascii_of_string s) ds /\
    z = (acc * base ^ Z.of_nat (List.length ds) + place_value base ds)%Z.
Proof.
  intros base s. induction s as [|c s IH]; intros acc z; cbn [digits list_ascii_of_string].
  - split.
    + intro H. injection H as <-. exists []. split; [constructor|cbn; lia].
    + intros (ds & F & ->). inversion F. cbn. f_equal. lia.
  - split.
    + intro H. destruct (digit_value base c) as [x|] eqn:D; [|discriminate].
      apply IH in H. destruct H as (ds & F & ->). exists (x :: ds). split; [constructor; [apply digit_value_spec; exact D|exact F]|].
      cbn [List.length place_value]. rewrite Nat2Z.inj_succ, Z.pow_succ_r by lia. ring.
    + intros (ds & F & ->). inversion F as [|a b l l' Dg F']; subst. apply digit_value_spec in Dg. rewrite Dg.
      apply IH. exists l'. split; [exact F'|]. cbn [List.length place_value]. rewrite Nat2Z.inj_succ, Z.pow_succ_r by lia. ring.
Qed.

Lemma unsigned_spec : forall base s z, unsigned base s = Some z <-> natural base s z.
Proof.
  intros base s z. unfold unsigned. destruct s as [|c s].
  - split; [discriminate|]. intro H. inversion H. congruence.
  - rewrite digits_spec. split.
    + intros (ds & F & ->). rewrite Z.mul_0_l, Z.add_0_l. apply nat_digits; [discriminate|exact F].
    + intro H. inversion H as [? ds N F]; subst. exists ds. split; [exact F|ring].
Qed.

Lemma no_sign : forall base c s z, natural base (String c s) z -> c <> "-"%char /\ c <> "+"%char.
Proof.
  intros base c s z H. inversion H as [? ds N F]; subst. cbn [list_ascii_of_string] in F. inversion F as [|a b l l' D _]; subst.
  apply digit_value_spec in D. split; intros ->; discriminate.
Qed.

Lemma parse_int_spec : forall base s z, parse_int base s = Some z <-> numeral base s z.
Proof.
  intros base s z. split.
  - intro H. unfold parse_int in H. destruct s as [|c s]; [discriminate|].
    destruct (Ascii.eqb_spec c "-") as [->|N1].
    + destruct (unsigned base s) as [x|] eqn:U; [|discriminate]. injection H as <-.
      apply (num_minus base s x). apply unsigned_spec. exact U.
    + destruct (Ascii.eqb_spec c "+") as [->|N2].
      * apply (num_plus base s z). apply unsigned_spec. exact H.
      * apply num_plain. apply unsigned_spec. rewrite <- H.
        destruct c as [[] [] [] [] [] [] [] []]; try reflexivity; congruence.
  - intro H. destruct H as [s z H|s z H|s z H].
    + pose proof H as H'. apply unsigned_spec in H'. destruct s as [|c s]; [discriminate H'|].
      destruct (no_sign _ _ _ _ H) as [N1 N2]. rewrite <- H'. unfold parse_int.
      destruct c as [[] [] [] [] [] [] [] []]; try reflexivity; congruence.
    + apply unsigned_spec in H. exact H.
    + apply unsigned_spec in H. cbn [append parse_int]. rewrite H. reflexivity.
Qed.

Lemma numeral_fun : forall base s z z', numeral base s z -> numeral base s z' -> z = z'.
Proof. intros base s z z' A B. apply parse_int_spec in A, B. congruence. Qed.

Lemma to_int_spec : forall n z, to_int (Val [] (SNum n) []) = Ok z <-> number_is n z.
Proof.
  intros n z. unfold to_int. cbn [shape_of]. destruct n as [p d|b].
  - split.
    + intro H. assert (D : (exists z, CtySpec.is_whole d z /\ CtySpec.in_int64 z) \/ (forall z, CtySpec.is_whole d z -> ~ CtySpec.in_int64 z)).
      { destruct (Z.eq_dec (num d mod 2 ^ Z.of_nat (den d)) 0) as [Q|Q].
        - apply Z.mod_divide in Q; [|apply Z.pow_nonzero; lia]. destruct Q as (y & Q).
          destruct (Z_le_dec (- 2 ^ 63) y) as [L|L]; [destruct (Z_lt_dec y (2 ^ 63)) as [U|U]|].
          + left. exists y. split; [exact Q|split; assumption].
          + right. intros y' W R. unfold CtySpec.is_whole in W. rewrite W in Q. apply Z.mul_reg_r in Q; [|apply Z.pow_nonzero; lia].
            subst y'. destruct R; contradiction.
          + right. intros y' W R. unfold CtySpec.is_whole in W. rewrite W in Q. apply Z.mul_reg_r in Q; [|apply Z.pow_nonzero; lia].
            subst y'. destruct R; contradiction.
        - right. intros y W. exfalso. apply Q. unfold CtySpec.is_whole in W. rewrite W. apply Z.mod_mul. apply Z.pow_nonzero; lia. }
      destruct D as [(y & W & R)|D].
      * rewrite (CtyProofs.from_int_whole d y W R) in H. injection H as <-. split; [exists p, d; split; [reflexivity|exact W]|exact R].
      * destruct (CtyProofs.from_int_err d D) as (e & X). rewrite X in H. discriminate.
    + intros [(p' & d' & X & W) R]. injection X as <- <-. apply CtyProofs.from_int_whole; assumption.
  - split; [discriminate|]. intros [(p & d & X & _) _]. discriminate.
Qed.
Lemma to_int_cases : forall n, (exists z, to_int (Val [] (SNum n) []) = Ok z) \/ exists e, to_int (Val [] (SNum n) []) = Err e.
Proof.
  intros [p d|b]; cbn [to_int shape_of]; [|right; eexists; reflexivity].
  unfold from_int. destruct (big_int64 d) as [z []]; eauto.
Qed.

(* ----- texts ----- *)

Lemma append_nil : forall s, s +++ "" = s.
Proof. induction s as [|c s IH]; cbn; [reflexivity|rewrite IH; reflexivity]. Qed.
Lemma append_inj : forall a b c, a +++ b = a +++ c -> b = c.
Proof. induction a as [|x a IH]; intros b c H; [exact H|]. injection H as H. exact (IH _ _ H). Qed.

Lemma length_app : forall a b, String.length (a +++ b) = String.length a + String.length b.
Proof. induction a as [|c a IH]; intro b; cbn; [reflexivity|rewrite IH; reflexivity]. Qed.
Lemma substring_all : forall s, substring 0 (String.length s) s = s.
Proof. induction s as [|c s IH]; cbn; [reflexivity|rewrite IH; reflexivity]. Qed.
Lemma substring_tail : forall p s, substring (String.length p) (String.length s) (p +++ s) = s.
Proof. induction p as [|c p IH]; intro s; cbn; [apply substring_all|apply IH]. Qed.
Lemma split_at : forall n s, n <= String.length s -> s = substring 0 n s +++ substring n (String.length s - n) s.
Proof.
  induction n as [|n IH]; intros s H.
  - rewrite Nat.sub_0_r. destruct s; cbn; [reflexivity|]. f_equal. symmetry. apply substring_all.
  - destruct s as [|c s]; [cbn in H; lia|]. cbn in H |- *. f_equal. apply IH. lia.
Qed.
Lemma has_suffix_spec : forall s suf, has_suffix s suf = true <-> exists p, s = p +++ suf.
Proof.
  intros s suf. unfold has_suffix. rewrite andb_true_iff, Nat.leb_le, String.eqb_eq. split.
  - intros [L H]. exists (substring 0 (String.length s - String.length suf) s). rewrite <- H at 2.
    replace (substring (String.length s - String.length suf) (String.length suf) s)
      with (substring (String.length s - String.length suf) (String.length s - (String.length s - String.length suf)) s)
      by (f_equal; lia).
    apply split_at. lia.
  - intros (p & ->). rewrite length_app. split; [lia|].
    replace (String.length p + String.length suf - String.length suf) with (String.length p) by lia. apply substring_tail.
Qed.
Lemma contains_spec : forall s sub, contains s sub = true <-> exists p q, s = p +++ sub +++ q.
Proof.
  induction s as [|c s IH]; intro sub; cbn [contains]; rewrite orb_true_iff.
  - split.
    + intros [H|H]; [|discriminate]. apply prefix_app in H. destruct H as (q & H). exists "", q. exact H.
    + intros (p & q & H). left. apply prefix_app. destruct p; [|discriminate]. exists q. exact H.
  - split.
    + intros [H|H].
      * apply prefix_app in H. destruct H as (q & H). exists "", q. exact H.
      * apply IH in H. destruct H as (p & q & ->). exists (String c p), q. reflexivity.
    + intros (p & q & H). destruct p as [|d p].
      * left. apply prefix_app. exists q. exact H.
      * right. injection H as -> ->. apply IH. eauto.
Qed.

Lemma replace_skip : forall sub by_ a s, replace_all sub by_ (String.length a) (a +++ s) = replace_all sub by_ 0 s.
Proof. induction a as [|c a IH]; intro s; [reflexivity|]. cbn. apply IH. Qed.
Lemma replace_all_spec : forall sub by_, sub <> "" -> forall n s, String.length s <= n -> replaced sub by_ s (replace_all sub by_ 0 s).
Proof.
  intros sub by_ N n. induction n as [|n IH]; intros s L.
  - destruct s; [constructor|cbn in L; lia].
  - destruct s as [|c s]; [constructor|]. cbn [replace_all]. cbn in L.
    destruct (prefix sub (String c s)) eqn:P.
    + apply prefix_app in P. destruct P as (q & P). destruct sub as [|d sub]; [congruence|].
      injection P as -> ->. cbn [String.length]. replace (S (String.length sub) - 1) with (String.length sub) by lia.
      rewrite replace_skip. change (String d (sub +++ q)) with (String d sub +++ q). apply rp_here. apply IH.
      rewrite length_app in L. lia.
    + apply rp_next; [|apply IH; lia]. intros q X. assert (prefix sub (String c s) = true) by (apply prefix_app; eauto). congruence.
Qed.
Lemma replaced_fun : forall sub by_ s r r', sub <> "" -> replaced sub by_ s r -> replaced sub by_ s r' -> r = r'.
Proof.
  intros sub by_ s r r' N H. revert r'. induction H as [|s r H IH|c s r X H IH]; intros r' H'.
  - inversion H' as [E| s' r0 H0 E1 E2|]; subst; [reflexivity|]. destruct sub; [congruence|discriminate].
  - remember (sub +++ s) as t. destruct H' as [|s' r0 H0|c s' r0 X0 H0].
    + destruct sub; [congruence|discriminate].
    + apply append_inj in Heqt. subst s'. rewrite (IH _ H0). reflexivity.
    + exfalso. exact (X0 _ Heqt).
  - remember (String c s) as t. destruct H' as [|s' r0 H0|c' s' r0 X0 H0].
    + discriminate.
    + exfalso. exact (X s' eq_refl).
    + injection Heqt as -> ->. rewrite (IH _ H0). reflexivity.
Qed.
Lemma replaced_absent : forall sub by_ s, (forall p q, s <> p +++ sub +++ q) -> replaced sub by_ s s.
Proof.
  intros sub by_ s. induction s as [|c s IH]; intro H; [constructor|]. apply rp_next.
  - intros q X. exact (H "" q X).
  - apply IH. intros p q X. apply (H (String c p) q). cbn. rewrite X. reflexivity.
Qed.
Lemma replaced_same : forall sub s, forall r, replaced sub sub s r -> r = s.
Proof. intros sub s r H. induction H; congruence. Qed.

Lemma last_char_app : forall s c d, last_char c (s +++ String d "") = d.
Proof. induction s as [|x s IH]; intros c d; [reflexivity|]. cbn. apply IH. Qed.
Lemma last_char_split : forall s c, exists p, String c s = p +++ String (last_char c s) "".
Proof.
  induction s as [|d s IH]; intro c; [exists ""; reflexivity|]. cbn. destruct (IH d) as (p & H). exists (String c p). cbn. rewrite H. reflexivity.
Qed.
Lemma in_slashes_spec : forall s, in_slashes s = true <-> exists q, s = "/" +++ q +++ "/".
Proof.
  intro s. split.
  - destruct s as [|c [|d r]]; try discriminate. cbn. intro H. apply andb_true_iff in H. destruct H as [A B].
    apply Ascii.eqb_eq in A, B. subst c. destruct (last_char_split r d) as (p & H). rewrite B in H. exists p. rewrite H. reflexivity.
  - intros (q & ->). cbn [append]. destruct (q +++ "/") as [|d r] eqn:Q; [destruct q; discriminate|].
    cbn [in_slashes]. rewrite Ascii.eqb_refl. cbn [andb]. destruct q as [|x q].
    + injection Q as <- <-. reflexivity.
    + injection Q as <- <-. rewrite last_char_app. reflexivity.
Qed.
Lemma inside_slashes : forall q, substring 1 (String.length ("/" +++ q +++ "/") - 2) ("/" +++ q +++ "/") = q.
Proof.
  intro q. cbn [append String.length substring]. rewrite length_app. cbn [String.length].
  replace (S (String.length q + 1) - 2) with (String.length q) by lia.
  induction q as [|c q IH]; [reflexivity|]. cbn. rewrite IH. reflexivity.
Qed.
