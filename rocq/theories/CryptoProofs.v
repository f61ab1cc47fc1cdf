(* Lemmas about UUIDs. *)

From Verif Require Import Base CtyModel FuncModel EncModel EncSpec EncProofs CryptoModel CryptoSpec.
From Coq Require Import NArith ZArith Lia.

(* ----- Parts of texts ----- *)

Lemma substring_step : forall s n m, n < String.length s -> substring n (S m) s = String (byte_at s n) (substring (S n) m s).
Proof.
  induction s as [|c s IH]; intros n m L; [cbn in L; lia|]. destruct n as [|n].
  - cbn. destruct m; destruct s; reflexivity.
  - cbn [substring String.length] in *. rewrite IH by lia. unfold byte_at. reflexivity.
Qed.
Lemma substring_zero : forall s n, substring n 0 s = "".
Proof. induction s as [|c s IH]; intros [|n]; try reflexivity. cbn. apply IH. Qed.
Lemma substring_split : forall m s n k, n + m <= String.length s -> substring n (m + k) s = substring n m s +++ substring (n + m) k s.
Proof.
  induction m as [|m IH]; intros s n k L; [rewrite substring_zero, Nat.add_0_r; reflexivity|].
  cbn [Nat.add]. rewrite !substring_step by lia. cbn. rewrite IH by lia. do 3 f_equal. lia.
Qed.
Lemma substring_all : forall s n, n = String.length s -> substring 0 n s = s.
Proof. induction s as [|c s IH]; intros n ->; [reflexivity|]. cbn. rewrite IH; reflexivity. Qed.
Lemma substring_len : forall s n m, n + m <= String.length s -> String.length (substring n m s) = m.
Proof.
  intros s n m. revert n. induction m as [|m IH]; intros n L; [rewrite substring_zero; reflexivity|]. rewrite substring_step by lia. cbn. rewrite IH by lia. reflexivity.
Qed.
Lemma app_len : forall a b, String.length (a +++ b) = String.length a + String.length b.
Proof. induction a as [|c a IH]; intro b; cbn; [reflexivity|rewrite IH; reflexivity]. Qed.
Lemma substring_left : forall a b n, n = String.length a -> substring 0 n (a +++ b) = a.
Proof. induction a as [|c a IH]; intros b n ->; [destruct b; reflexivity|]. cbn. rewrite IH; reflexivity. Qed.
Lemma substring_right : forall a b n k m, n = String.length a + k -> substring n m (a +++ b) = substring k m b.
Proof. induction a as [|c a IH]; intros b n k m ->; [reflexivity|]. cbn. apply IH. reflexivity. Qed.
Lemma byte_right : forall a b n k, n = String.length a + k -> byte_at (a +++ b) n = byte_at b k.
Proof. unfold byte_at. induction a as [|c a IH]; intros b n k ->; [reflexivity|]. cbn. apply IH. reflexivity. Qed.

(* ----- Digits ----- *)

Lemma xvalue_hex : forall c x, xvalue c = Some x <-> hex_digit c x.
Proof.
  intros c x. split.
  - unfold xvalue, in_range. intro H.
    destruct (_ && _) eqn:A in H; [|destruct (_ && _) eqn:B in H; [|destruct (_ && _) eqn:C in H; [|discriminate]]].
    + apply andb_prop in A. destruct A as [A1 A2]. apply N.leb_le in A1, A2. injection H as <-. rewrite <- (ascii_N_embedding c) at 1. replace (N_of_ascii c) with (48 + (N_of_ascii c - 48))%N at 1 by lia. constructor. lia.
    + apply andb_prop in B. destruct B as [A1 A2]. apply N.leb_le in A1, A2. injection H as <-. rewrite <- (ascii_N_embedding c) at 1. replace (N_of_ascii c) with (65 + (N_of_ascii c - 65))%N at 1 by lia.
      replace (N_of_ascii c - 55)%N with (10 + (N_of_ascii c - 65))%N by lia. constructor. lia.
    + apply andb_prop in C. destruct C as [A1 A2]. apply N.leb_le in A1, A2. injection H as <-. rewrite <- (ascii_N_embedding c) at 1. replace (N_of_ascii c) with (97 + (N_of_ascii c - 97))%N at 1 by lia.
      replace (N_of_ascii c - 87)%N with (10 + (N_of_ascii c - 97))%N by lia. constructor. lia.
  - intros [k K|k K|k K]; unfold xvalue, in_range; rewrite N_ascii_embedding by lia.
    + replace (48 <=? 48 + k)%N with true by (symmetry; apply N.leb_le; lia). replace (48 + k <=? 57)%N with true by (symmetry; apply N.leb_le; lia). cbn [andb]. f_equal. lia.
    + replace (65 + k <=? 57)%N with false by (symmetry; apply N.leb_gt; lia). rewrite Bool.andb_false_r.
      replace (65 <=? 65 + k)%N with true by (symmetry; apply N.leb_le; lia). replace (65 + k <=? 70)%N with true by (symmetry; apply N.leb_le; lia). cbn [andb]. f_equal. lia.
    + replace (97 + k <=? 57)%N with false by (symmetry; apply N.leb_gt; lia). replace (97 + k <=? 70)%N with false by (symmetry; apply N.leb_gt; lia). rewrite !Bool.andb_false_r.
      replace (97 <=? 97 + k)%N with true by (symmetry; apply N.leb_le; lia). replace (97 + k <=? 102)%N with true by (symmetry; apply N.leb_le; lia). cbn [andb]. f_equal. lia.
Qed.
Lemma hex_small : forall c x, hex_digit c x -> (x < 16)%N.
Proof. intros c x []; lia. Qed.
Lemma join_nibbles : forall x y, (x < 16)%N -> (y < 16)%N -> N.lor (N.shiftl x 4) y = (16 * x + y)%N.
Proof.
  intros x y X Y.
  apply N.eqb_eq.
  assert (H := all_small 16 (fun x => forallb (fun y => (N.lor (N.shiftl x 4) (N.of_nat y) =? 16 * x + N.of_nat y)%N) (seq 0 16)) ltac:(vm_compute; reflexivity) x X).
  cbv beta in H. rewrite forallb_forall in H. specialize (H (N.to_nat y)). rewrite N2Nat.id in H. apply H. apply in_seq. lia.
Qed.
Lemma xtob_hex : forall a b v, xtob a b = Some v <-> exists x y, hex_digit a x /\ hex_digit b y /\ v = ascii_of_N (16 * x + y).
Proof.
  intros a b v. unfold xtob. split.
  - destruct (xvalue a) as [x|] eqn:A; [|discriminate]. destruct (xvalue b) as [y|] eqn:B; [|discriminate]. intro H. apply xvalue_hex in A, B.
    injection H as <-. exists x, y. rewrite join_nibbles by (eapply hex_small; eauto). auto.
  - intros (x & y & A & B & ->). rewrite (proj2 (xvalue_hex a x) A), (proj2 (xvalue_hex b y) B), join_nibbles by (eapply hex_small; eauto). reflexivity.
Qed.
Fixpoint run (n k : nat) : list nat := match k with O => [] | S k' => n :: run (n + 2) k' end.
Lemma read_run : forall k n s u, n + 2 * k <= String.length s -> read_at s (run n k) = Some u <-> hex_any (substring n (2 * k) s) u /\ String.length u = k.
Proof.
  induction k as [|k IH]; intros n s u L.
  - cbn. rewrite substring_zero. split; [intro H; injection H as <-; split; [constructor|reflexivity]|].
    intros [H E]. inversion H; subst; reflexivity.
  - replace (2 * S k) with (S (S (2 * k))) by lia. rewrite !substring_step by lia. cbn [run read_at]. replace (n + 2) with (S (S n)) in * by lia. split.
    + destruct (xtob _ _) as [v|] eqn:X; [|discriminate]. destruct (read_at s (run (S (S n)) k)) as [r|] eqn:R; [|discriminate]. intro H. injection H as <-.
      apply IH in R; [|lia]. destruct R as [R E]. apply xtob_hex in X. destruct X as (x & y & A & B & ->). split; [constructor; assumption|cbn; congruence].
    + intros [H E]. inversion H as [|h l x y t s' A B R]; subst. cbn in E. assert (X : xtob (byte_at s n) (byte_at s (S n)) = Some (ascii_of_N (16 * x + y))) by (apply xtob_hex; eauto).
      rewrite X. rewrite (proj2 (IH (S (S n)) s s' ltac:(lia))); [reflexivity|]. split; [exact R|lia].
Qed.
Lemma read_app : forall l l' s u, read_at s (l ++ l') = Some u <-> exists a b, read_at s l = Some a /\ read_at s l' = Some b /\ u = a +++ b.
Proof.
  induction l as [|x l IH]; intros l' s u.
  - cbn. split; [intro H; exists "", u; auto|intros (a & b & A & B & ->); injection A as <-; exact B].
  - cbn [app read_at]. destruct (xtob _ _) as [v|].
    2: { split; [discriminate|]. intros (a & b & A & _). discriminate. }
    split.
    + destruct (read_at s (l ++ l')) as [r|] eqn:R; [|discriminate]. intro H. injection H as <-. apply IH in R. destruct R as (a & b & A & B & ->).
      exists (String v a), b. rewrite A. auto.
    + intros (a & b & A & B & ->). destruct (read_at s l) as [a'|] eqn:E; [|discriminate]. injection A as <-.
      rewrite (proj2 (IH l' s (a' +++ b))); [reflexivity|]. eauto.
Qed.
Lemma hex_any_len : forall t u, hex_any t u -> String.length t = 2 * String.length u.
Proof. intros t u H. induction H; cbn; lia. Qed.

Lemma dashed_len : forall t u, dashed hex_any t u -> String.length t = 36 /\ String.length u = 16.
Proof.
  intros t u (a & b & c & d & e & ta & tb & tc & td & te & A & B & C & D & E & La & Lb & Lc & Ld & Le & -> & ->).
  apply hex_any_len in A, B, C, D, E. rewrite ?app_len. cbn [String.length]. lia.
Qed.
Lemma read_dashed_iff : forall s u, 36 <= String.length s -> read_dashed s = Ok u <-> exists t r, s = t +++ r /\ dashed hex_any t u.
Proof.
  intros s u L. split.
  - unfold read_dashed. intro H. destruct (_ && _) eqn:X in H; [|discriminate].
    apply andb_prop in X. destruct X as [X X4]. apply andb_prop in X. destruct X as [X X3]. apply andb_prop in X. destruct X as [X1 X2].
    unfold dash_at in *. apply Ascii.eqb_eq in X1, X2, X3, X4. unfold read_all in H.
    change [0; 2; 4; 6; 9; 11; 14; 16; 19; 21; 24; 26; 28; 30; 32; 34] with (run 0 4 ++ run 9 2 ++ run 14 2 ++ run 19 2 ++ run 24 6) in H.
    destruct (read_at _ _) as [u'|] eqn:R in H; [|discriminate]. injection H as ->.
    apply read_app in R. destruct R as (a & r & A & R & ->). apply read_app in R. destruct R as (b & r1 & B & R & ->). apply read_app in R. destruct R as (c & r2 & C & R & ->).
    apply read_app in R. destruct R as (d & e & D & E & ->).
    apply read_run in A; [|lia]. apply read_run in B; [|lia]. apply read_run in C; [|lia]. apply read_run in D; [|lia]. apply read_run in E; [|lia].
    exists (substring 0 36 s), (substring 36 (String.length s - 36) s). split.
    + rewrite <- (substring_all s (36 + (String.length s - 36))) at 1 by lia. apply (substring_split 36 s 0). lia.
    + exists a, b, c, d, e. do 5 eexists. split; [exact (proj1 A)|]. split; [exact (proj1 B)|]. split; [exact (proj1 C)|]. split; [exact (proj1 D)|]. split; [exact (proj1 E)|].
      destruct A as [_ ->], B as [_ ->], C as [_ ->], D as [_ ->], E as [_ ->]. repeat split; try reflexivity.
      change 36 with (8 + (1 + (4 + (1 + (4 + (1 + (4 + (1 + 12)))))))).
      rewrite !substring_split by lia. cbn [Nat.add Nat.mul]. rewrite !(substring_step s _ 0) by lia. rewrite !substring_zero, X1, X2, X3, X4. reflexivity.
  - intros (t & r & -> & (a & b & c & d & e & ta & tb & tc & td & te & A & B & C & D & E & La & Lb & Lc & Ld & Le & -> & ->)).
    assert (LA := hex_any_len _ _ A). assert (LB := hex_any_len _ _ B). assert (LC := hex_any_len _ _ C). assert (LD := hex_any_len _ _ D). assert (LE := hex_any_len _ _ E).
    rewrite La in LA. rewrite Lb in LB. rewrite Lc in LC. rewrite Ld in LD. rewrite Le in LE. cbn [Nat.mul Nat.add] in LA, LB, LC, LD, LE.
    set (s := _ +++ r) in *.
    assert (Es : s = ta +++ "-" +++ tb +++ "-" +++ tc +++ "-" +++ td +++ "-" +++ te +++ r) by (unfold s; rewrite !append_assoc; reflexivity).
    assert (D8 : dash_at s 8 = true) by (unfold dash_at; rewrite Es, (byte_right ta _ 8 0) by lia; reflexivity).
    assert (Sa : substring 0 8 s = ta) by (rewrite Es; apply substring_left; lia).
    assert (E9 : s = (ta +++ "-") +++ tb +++ "-" +++ tc +++ "-" +++ td +++ "-" +++ te +++ r) by (rewrite Es, !append_assoc; reflexivity).
    assert (L9 : String.length (ta +++ "-") = 9) by (rewrite app_len, LA; reflexivity).
    assert (Sb : substring 9 4 s = tb) by (rewrite E9, (substring_right _ _ 9 0) by lia; apply substring_left; lia).
    assert (D13 : dash_at s 13 = true) by (unfold dash_at; rewrite E9, (byte_right _ _ 13 4), (byte_right tb _ 4 0) by lia; reflexivity).
    assert (E14 : s = (ta +++ "-" +++ tb +++ "-") +++ tc +++ "-" +++ td +++ "-" +++ te +++ r) by (rewrite Es, !append_assoc; reflexivity).
    assert (L14 : String.length (ta +++ "-" +++ tb +++ "-") = 14) by (rewrite ?app_len; cbn [String.length]; lia).
    assert (Sc : substring 14 4 s = tc) by (rewrite E14, (substring_right _ _ 14 0) by lia; apply substring_left; lia).
    assert (D18 : dash_at s 18 = true) by (unfold dash_at; rewrite E14, (byte_right _ _ 18 4), (byte_right tc _ 4 0) by lia; reflexivity).
    assert (E19 : s = (ta +++ "-" +++ tb +++ "-" +++ tc +++ "-") +++ td +++ "-" +++ te +++ r) by (rewrite Es, !append_assoc; reflexivity).
    assert (L19 : String.length (ta +++ "-" +++ tb +++ "-" +++ tc +++ "-") = 19)
      by (rewrite ?app_len; cbn [String.length]; lia).
    assert (Sd : substring 19 4 s = td) by (rewrite E19, (substring_right _ _ 19 0) by lia; apply substring_left; lia).
    assert (D23 : dash_at s 23 = true) by (unfold dash_at; rewrite E19, (byte_right _ _ 23 4), (byte_right td _ 4 0) by lia; reflexivity).
    assert (E24 : s = (ta +++ "-" +++ tb +++ "-" +++ tc +++ "-" +++ td +++ "-") +++ te +++ r) by (rewrite Es, !append_assoc; reflexivity).
    assert (L24 : String.length (ta +++ "-" +++ tb +++ "-" +++ tc +++ "-" +++ td +++ "-") = 24)
      by (rewrite ?app_len; cbn [String.length]; lia).
    assert (Se : substring 24 12 s = te) by (rewrite E24, (substring_right _ _ 24 0) by lia; apply substring_left; lia).
    unfold read_dashed. rewrite D8, D13, D18, D23. cbn [andb]. unfold read_all.
    change [0; 2; 4; 6; 9; 11; 14; 16; 19; 21; 24; 26; 28; 30; 32; 34] with (run 0 4 ++ run 9 2 ++ run 14 2 ++ run 19 2 ++ run 24 6).
    assert (R : read_at s (run 0 4 ++ run 9 2 ++ run 14 2 ++ run 19 2 ++ run 24 6) = Some (a +++ b +++ c +++ d +++ e)).
    { apply read_app. exists a, (b +++ c +++ d +++ e). split; [apply read_run; [lia|]; cbn [Nat.mul Nat.add]; rewrite Sa; auto|]. split; [|reflexivity].
      apply read_app. exists b, (c +++ d +++ e). split; [apply read_run; [lia|]; cbn [Nat.mul Nat.add]; rewrite Sb; auto|]. split; [|reflexivity].
      apply read_app. exists c, (d +++ e). split; [apply read_run; [lia|]; cbn [Nat.mul Nat.add]; rewrite Sc; auto|]. split; [|reflexivity].
      apply read_app. exists d, e. split; [apply read_run; [lia|]; cbn [Nat.mul Nat.add]; rewrite Sd; auto|]. split; [|reflexivity].
      apply read_run; [lia|]. cbn [Nat.mul Nat.add]. rewrite Se. auto. }
    rewrite R. reflexivity.
Qed.

(* ----- Namespaces ----- *)

Lemma fold_large : forall k, (k < 26)%N -> fold_char (ascii_of_N (65 + k)) = ascii_of_N (97 + k).
Proof.
  intros k K. apply Ascii.eqb_eq. exact (all_small 26 (fun k => Ascii.eqb (fold_char (ascii_of_N (65 + k))) (ascii_of_N (97 + k))) ltac:(vm_compute; reflexivity) k K).
Qed.
Lemma same_fold : forall p q, same_letters p q -> fold_text q = q -> fold_text p = q.
Proof.
  intros p q H. induction H as [|c s t H IH|k s t K H IH]; intro Q; [reflexivity| |]; cbn [fold_text] in *.
  - assert (Q1 : fold_char c = c) by congruence. assert (Q2 : fold_text t = t) by congruence. rewrite Q1, IH by exact Q2. reflexivity.
  - assert (Q2 : fold_text t = t) by congruence. rewrite fold_large, IH by assumption. reflexivity.
Qed.
Lemma fold_iff : forall p q, fold_text q = q -> (fold_text p = q <-> same_letters p q).
Proof.
  induction p as [|c p IH]; intros q Q.
  - cbn. split; [intros <-; constructor|intro H; inversion H; reflexivity].
  - split.
    + intro H. cbn in H. subst q. cbn in Q. injection Q as Q1 Q2. assert (S := proj1 (IH (fold_text p) Q2) eq_refl).
      unfold fold_char in *. destruct (in_range 65 90 c) eqn:R; [|constructor; exact S].
      unfold in_range in R. apply andb_prop in R. destruct R as [R1 R2]. apply N.leb_le in R1, R2.
      replace (N_of_ascii c + 32)%N with (97 + (N_of_ascii c - 65))%N by lia. rewrite <- (ascii_N_embedding c) at 1. replace (N_of_ascii c) with (65 + (N_of_ascii c - 65))%N at 1 by lia.
      constructor; [lia|exact S].
    + intro H. apply same_fold; assumption.
Qed.
Lemma same_len : forall p q, same_letters p q -> String.length p = String.length q.
Proof. intros p q H. induction H; cbn; congruence. Qed.
Lemma cut_last : forall s n, String.length s = S n -> exists t y, s = t +++ String y "" /\ String.length t = n.
Proof.
  induction s as [|c s IH]; intros n L; [discriminate|]. cbn in L. injection L as L. destruct n as [|n].
  - destruct s; [|discriminate]. exists "", c. auto.
  - destruct (IH n L) as (t & y & -> & E). exists (String c t), y. cbn. auto.
Qed.
Lemma app_split : forall a b c d, a +++ b = c +++ d -> String.length a = String.length c -> a = c /\ b = d.
Proof.
  induction a as [|x a IH]; intros b [|y c] d H L; try discriminate; [auto|]. cbn in *. injection H as <- H. injection L as L. destruct (IH b c d H L) as [-> ->]. auto.
Qed.
Lemma dashed_exact : forall s u, String.length s = 36 -> (read_dashed s = Ok u <-> dashed hex_any s u).
Proof.
  intros s u L. rewrite read_dashed_iff by lia. split.
  - intros (t & r & -> & D). destruct (dashed_len _ _ D) as [Lt _]. rewrite app_len in L. destruct r; [|cbn in L; lia]. rewrite append_nil_r. exact D.
  - intro D. exists s, "". rewrite append_nil_r. auto.
Qed.
Section Parse.
Variable quoted : string -> string.
Variable itoa : Z -> string.
Lemma parse_iff : forall s u, uuid_parse quoted itoa s = Ok u <->
  dashed hex_any s u \/ (exists p t, s = p +++ t /\ same_letters p "urn:uuid:" /\ dashed hex_any t u) \/
  (exists x y t, s = String x (t +++ String y "") /\ dashed hex_any t u) \/ (hex_any s u /\ String.length u = 16).
Proof.
  intros s u. unfold uuid_parse. split.
  - destruct (Nat.eqb_spec (String.length s) 36) as [L|N36]; [intro H; left; apply dashed_exact; assumption|].
    destruct (Nat.eqb_spec (String.length s) 45) as [L|N45].
    { destruct (String.eqb_spec (fold_text (substring 0 9 s)) "urn:uuid:") as [F|]; [|discriminate]. intro H. right. left.
      exists (substring 0 9 s), (substring 9 36 s). apply dashed_exact in H; [|apply substring_len; lia]. split; [|split; [apply fold_iff; [reflexivity|exact F]|exact H]].
      change 9 with (0 + 9) at 2. rewrite <- (substring_split 9 s 0 36) by lia. symmetry. apply substring_all. lia. }
    destruct (Nat.eqb_spec (String.length s) 38) as [L|N38].
    { intro H. right. right. left. destruct s as [|x s]; [discriminate|]. cbn [substring String.length] in *. injection L as L. rewrite (substring_all s 37) in H by lia.
      apply read_dashed_iff in H; [|lia]. destruct H as (t & r & -> & D). destruct (dashed_len _ _ D) as [Lt _]. rewrite app_len, Lt in L.
      destruct r as [|y [|z r]]; cbn in L; try lia. exists x, y, t. auto. }
    destruct (Nat.eqb_spec (String.length s) 32) as [L|N32]; [|discriminate]. unfold read_all.
    change [0; 2; 4; 6; 8; 10; 12; 14; 16; 18; 20; 22; 24; 26; 28; 30] with (run 0 16). destruct (read_at s (run 0 16)) as [v|] eqn:R; [|discriminate]. intro H. injection H as ->.
    apply read_run in R; [|lia]. rewrite (substring_all s (2 * 16)) in R by lia. right. right. right. exact R.
  - intros [D|[(p & t & -> & S & D)|[(x & y & t & -> & D)|[H L]]]].
    + destruct (dashed_len _ _ D) as [L _]. rewrite L, Nat.eqb_refl. apply dashed_exact; assumption.
    + destruct (dashed_len _ _ D) as [L _]. assert (Lp := same_len _ _ S). cbn in Lp. rewrite app_len, L, Lp. cbn [Nat.add Nat.eqb].
      rewrite (substring_left p t 9) by lia. rewrite (proj2 (fold_iff p "urn:uuid:" eq_refl) S), String.eqb_refl.
      rewrite (substring_right p t 9 0) by lia. rewrite substring_all by lia. apply dashed_exact; assumption.
    + destruct (dashed_len _ _ D) as [L _]. cbn [String.length]. rewrite app_len, L. cbn [String.length Nat.add Nat.eqb substring].
      rewrite substring_all by (rewrite app_len, L; reflexivity). apply read_dashed_iff; [rewrite app_len; lia|]. exists t, (String y ""). auto.
    + assert (Ls := hex_any_len _ _ H). rewrite L in Ls. rewrite Ls. cbn [Nat.mul Nat.add Nat.eqb]. unfold read_all.
      change [0; 2; 4; 6; 8; 10; 12; 14; 16; 18; 20; 22; 24; 26; 28; 30] with (run 0 16).
      rewrite (proj2 (read_run 16 0 s u ltac:(lia))); [reflexivity|]. rewrite substring_all by lia. auto.
Qed.
Lemma known_len : forall s t, known_space s = Some t -> String.length s <= 4.
Proof.
  intros s t. unfold known_space. destruct (String.eqb_spec s "dns") as [->|_]; [cbn; lia|]. destruct (String.eqb_spec s "url") as [->|_]; [cbn; lia|].
  destruct (String.eqb_spec s "oid") as [->|_]; [cbn; lia|]. destruct (String.eqb_spec s "x500") as [->|_]; [cbn; lia|]. discriminate.
Qed.
Lemma unknown_space : forall s, 4 < String.length s -> known_space s = None.
Proof. intros s L. destruct (known_space s) eqn:K; [|reflexivity]. apply known_len in K. lia. Qed.
Lemma namespace_parse : forall s u, namespace s u -> namespace_of quoted itoa s = Ok u /\ String.length u = 16.
Proof.
  assert (P : forall s u, 4 < String.length s -> uuid_parse quoted itoa s = Ok u -> namespace_of quoted itoa s = Ok u).
  { intros s u L E. unfold namespace_of. rewrite unknown_space, E by exact L. reflexivity. }
  intros s u [s' n N|t v D|p t v S D|t v D|t v H L].
  - destruct N; split; reflexivity.
  - destruct (dashed_len _ _ D) as [L1 L2]. split; [|exact L2]. apply P; [lia|]. apply parse_iff. auto.
  - destruct (dashed_len _ _ D) as [L1 L2]. split; [|exact L2]. apply P; [rewrite app_len; lia|]. apply parse_iff. right. left. eauto.
  - destruct (dashed_len _ _ D) as [L1 L2]. split; [|exact L2]. apply P; [cbn; rewrite app_len; lia|]. apply parse_iff. right. right. left. exists "{"%char, "}"%char, t. auto.
  - split; [|exact L]. apply P; [rewrite (hex_any_len _ _ H); lia|]. apply parse_iff. auto.
Qed.
Lemma namespace_inv : forall s u, namespace_of quoted itoa s = Ok u -> namespace s u \/ exists x y t, s = String x (t +++ String y "") /\ dashed hex_any t u.
Proof.
  intros s u H. unfold namespace_of in H. destruct (known_space s) as [t|] eqn:K.
  - left. unfold known_space in K.
    destruct (String.eqb_spec s "dns") as [->|_]; [injection K as <-; injection H as <-; exact (ns_name _ _ sn_dns)|].
    destruct (String.eqb_spec s "url") as [->|_]; [injection K as <-; injection H as <-; exact (ns_name _ _ sn_url)|].
    destruct (String.eqb_spec s "oid") as [->|_]; [injection K as <-; injection H as <-; exact (ns_name _ _ sn_oid)|].
    destruct (String.eqb_spec s "x500") as [->|_]; [injection K as <-; injection H as <-; exact (ns_name _ _ sn_x500)|]. discriminate.
  - destruct (uuid_parse quoted itoa s) as [v|e|e] eqn:E; try discriminate. injection H as ->. apply parse_iff in E.
    destruct E as [D|[(p & t & -> & S & D)|[X|[Hx L]]]]; [left; apply ns_plain; exact D|left; apply ns_urn; assumption|right; exact X|left; apply ns_digits; assumption].
Qed.
End Parse.

(* ----- Results ----- *)

Lemma version_bits : forall c, byte_bits (set_version c) = [false; true; false; true] ++ skipn 4 (byte_bits c).
Proof. intros [[] [] [] [] [] [] [] []]; reflexivity. Qed.
Lemma variant_bits : forall c, byte_bits (set_variant c) = [true; false] ++ skipn 2 (byte_bits c).
Proof. intros [[] [] [] [] [] [] [] []]; reflexivity. Qed.
Lemma bits_of_byte : forall c d, byte_bits c = byte_bits d -> c = d.
Proof. intros [a b c d e f g h] [a' b' c' d' e' f' g' h'] H. cbn in H. congruence. Qed.
Lemma bits_len : forall s, List.length (bits s) = 8 * String.length s.
Proof. induction s as [|c s IH]; [reflexivity|]. cbn [bits String.length]. rewrite app_length, IH. destruct c. cbn [byte_bits List.length]. lia. Qed.
Lemma app_hex : forall a b s t, hex_text a s -> hex_text b t -> hex_text (a +++ b) (s +++ t).
Proof. intros a b s t H K. induction H; [exact K|]. cbn. constructor; assumption. Qed.
Ltac chars H := match type of H with String.length ?s = S _ => let c := fresh "c" in destruct s as [|c s]; [discriminate|]; apply (f_equal pred) in H; cbn [String.length pred] in H; chars H | String.length ?s = 0 => destruct s; [|discriminate] end.
Lemma new_sha1_spec : forall sha1 ns val, String.length (sha1 (ns +++ val)) = 20 ->
  String.length (new_sha1 sha1 ns val) = 16 /\ version5 (sha1 (ns +++ val)) (new_sha1 sha1 ns val).
Proof.
  intros sha1 ns val L. unfold new_sha1, version5. set (h := sha1 (ns +++ val)) in *. clearbody h. chars L.
  cbn [substring change_byte]. split; [reflexivity|]. cbn [bits]. rewrite version_bits, variant_bits.
  repeat match goal with c : ascii |- _ => destruct c end. reflexivity.
Qed.
Lemma uuid_string_spec : forall u, String.length u = 16 -> dashed hex_text (uuid_string u) u.
Proof.
  intros u L. exists (substring 0 4 u), (substring 4 2 u), (substring 6 2 u), (substring 8 2 u), (substring 10 6 u). do 5 eexists.
  do 5 (split; [apply hex_spec|]). do 5 (split; [apply substring_len; lia|]). split; [reflexivity|].
  rewrite <- (substring_all u 16) at 1 by lia. change 16 with (4 + (2 + (2 + (2 + 6)))). rewrite !substring_split by lia. reflexivity.
Qed.
Lemma ascii_app : forall a b, ascii_text a -> ascii_text b -> ascii_text (a +++ b).
Proof. intros a b H K. induction H; [exact K|]. constructor; assumption. Qed.
Lemma dashed_ascii : forall t u, dashed hex_text t u -> ascii_text t.
Proof.
  intros t u (a & b & c & d & e & ta & tb & tc & td & te & A & B & C & D & E & _ & _ & _ & _ & _ & -> & _).
  apply hex_ascii in A, B, C, D, E. assert (X : ascii_text "-") by (constructor; [cbn; lia|constructor]). repeat apply ascii_app; assumption.
Qed.
Lemma hex_text_value : forall t s s', hex_text t s -> hex_text t s' -> s = s'.
Proof.
  intros t s s' H. revert s'. induction H as [|h l x y t s X Y H IH]; intros s' H'; inversion H' as [|h' l' x' y' t' s'' X' Y' G]; subst; [reflexivity|].
  rewrite (hex_value _ _ _ (proj1 X) (proj1 X')), (hex_value _ _ _ (proj1 Y) (proj1 Y')), (IH _ G). reflexivity.
Qed.
Lemma hex_text_len : forall t u, hex_text t u -> String.length t = 2 * String.length u.
Proof. intros t u H. induction H; cbn; lia. Qed.
Lemma dashed_value : forall t u u', dashed hex_text t u -> dashed hex_text t u' -> u = u'.
Proof.
  intros t u u' (a & b & c & d & e & ta & tb & tc & td & te & A & B & C & D & E & La & Lb & Lc & Ld & Le & -> & ->)
    (a' & b' & c' & d' & e' & ta' & tb' & tc' & td' & te' & A' & B' & C' & D' & E' & La' & Lb' & Lc' & Ld' & Le' & X & ->).
  assert (LA := hex_text_len _ _ A). assert (LB := hex_text_len _ _ B). assert (LC := hex_text_len _ _ C). assert (LD := hex_text_len _ _ D).
  assert (LA' := hex_text_len _ _ A'). assert (LB' := hex_text_len _ _ B'). assert (LC' := hex_text_len _ _ C'). assert (LD' := hex_text_len _ _ D').
  apply app_split in X; [|lia]. destruct X as [<- X]. injection X as X. apply app_split in X; [|lia]. destruct X as [<- X]. injection X as X.
  apply app_split in X; [|lia]. destruct X as [<- X]. injection X as X. apply app_split in X; [|lia]. destruct X as [<- X]. injection X as <-.
  rewrite (hex_text_value _ _ _ A A'), (hex_text_value _ _ _ B B'), (hex_text_value _ _ _ C C'), (hex_text_value _ _ _ D D'), (hex_text_value _ _ _ E E'). reflexivity.
Qed.
Lemma list_split : forall (A : Type) (a b c d : list A), a ++ b = c ++ d -> List.length a = List.length c -> a = c /\ b = d.
Proof.
  induction a as [|x a IH]; intros b [|y c] d H L; try discriminate; [auto|]. cbn in *. injection H as <- H. injection L as L. destruct (IH b c d H L) as [-> ->]. auto.
Qed.
Lemma version5_agree : forall h h' u, String.length h = 20 -> String.length h' = 20 -> version5 h u -> version5 h' u -> agree h h'.
Proof.
  intros h h' u L L' V V'. unfold version5 in *. rewrite V in V'. clear V. assert (B := bits_len h). assert (B' := bits_len h').
  apply list_split in V'; [|rewrite !firstn_length; lia]. destruct V' as [E1 V']. apply list_split in V'; [|reflexivity]. destruct V' as [_ V'].
  apply list_split in V'; [|rewrite !firstn_length, !skipn_length; lia]. destruct V' as [E2 V']. apply list_split in V'; [|reflexivity]. destruct V' as [_ E3].
  split; [exact E1|]. split; [exact E2|exact E3].
Qed.
