(* Proofs about the encodings. *)

From Verif Require Import Base EncModel EncSpec.
From Coq Require Import NArith ZArith Lia.
Local Ltac Zify.zify_post_hook ::= Z.div_mod_to_equations.

(* ----- bits ----- *)

Lemma byte_testbits : forall c, byte_bits c = map (N.testbit (N_of_ascii c)) [7; 6; 5; 4; 3; 2; 1; 0]%N.
Proof. intros [[] [] [] [] [] [] [] []]; reflexivity. Qed.
Lemma byte_small : forall c, (N_of_ascii c < 256)%N.
Proof. exact N_ascii_bounded. Qed.
Lemma small_high : forall n k j, (n < 2 ^ k)%N -> (k <= j)%N -> N.testbit n j = false.
Proof.
  intros n k j H L. destruct (N.eq_dec n 0) as [->|Z]; [apply N.bits_0|]. apply N.bits_above_log2.
  apply N.log2_lt_pow2 in H; lia.
Qed.
Lemma byte_high : forall c j, (8 <= j)%N -> N.testbit (N_of_ascii c) j = false.
Proof. intros c j H. apply (small_high _ 8); [exact (byte_small c)|exact H]. Qed.
Lemma byte_bits_inj : forall c d, byte_bits c = byte_bits d -> c = d.
Proof. intros [? ? ? ? ? ? ? ?] [? ? ? ? ? ? ? ?] H. cbn in H. congruence. Qed.
Lemma byte_len : forall c, List.length (byte_bits c) = 8.
Proof. intros [? ? ? ? ? ? ? ?]. reflexivity. Qed.
Lemma bits_len : forall s, List.length (bits s) = 8 * String.length s.
Proof. induction s as [|c s IH]; [reflexivity|]. cbn [bits String.length]. rewrite app_length, byte_len, IH. lia. Qed.
Lemma app_same : forall A (a b c d : list A), List.length a = List.length c -> a ++ b = c ++ d -> a = c /\ b = d.
Proof.
  intros A a. induction a as [|x a IH]; intros b [|y c] d L H; try discriminate; [auto|]. cbn in *. injection H as -> H. injection L as L.
  destruct (IH b c d L H) as [-> ->]. auto.
Qed.
Lemma bits_inj : forall s s', bits s = bits s' -> s = s'.
Proof.
  induction s as [|c s IH]; intros [|c' s'] H; try reflexivity.
  - apply (f_equal (@List.length bool)) in H. cbn [bits] in H. rewrite app_length, byte_len in H. discriminate.
  - apply (f_equal (@List.length bool)) in H. cbn [bits] in H. rewrite app_length, byte_len in H. discriminate.
  - cbn [bits] in H. apply app_same in H; [|rewrite !byte_len; reflexivity]. destruct H as [E H]. rewrite (byte_bits_inj _ _ E), (IH _ H). reflexivity.
Qed.

(* ----- symbols ----- *)

Lemma symbol_char : forall n, (n < 64)%N -> symbol_of (byte_at alphabet (N.to_nat n)) n.
Proof.
  intros n H.
  assert (C : (n < 26 \/ (26 <= n /\ n < 52) \/ (52 <= n /\ n < 62) \/ n = 62 \/ n = 63)%N) by lia.
  destruct C as [C|[C|[C|[->| ->]]]]; [| | |constructor|constructor].
  - replace (byte_at alphabet (N.to_nat n)) with (ascii_of_N (65 + n)); [constructor; exact C|].
    assert (E : forallb (fun k => Ascii.eqb (ascii_of_N (65 + k)) (byte_at alphabet (N.to_nat k))) (map N.of_nat (seq 0 26)) = true) by (vm_compute; reflexivity).
    rewrite forallb_forall in E. apply Ascii.eqb_eq. apply E. apply in_map_iff. exists (N.to_nat n). split; [apply N2Nat.id|]. apply in_seq. lia.
  - set (k := (n - 26)%N). replace n with (26 + k)%N by (unfold k; lia).
    replace (byte_at alphabet (N.to_nat (26 + k))) with (ascii_of_N (97 + k)); [constructor; unfold k; lia|].
    assert (E : forallb (fun k => Ascii.eqb (ascii_of_N (97 + k)) (byte_at alphabet (N.to_nat (26 + k)))) (map N.of_nat (seq 0 26)) = true) by (vm_compute; reflexivity).
    rewrite forallb_forall in E. apply Ascii.eqb_eq. apply E. apply in_map_iff. exists (N.to_nat k). split; [apply N2Nat.id|]. apply in_seq. unfold k. lia.
  - set (k := (n - 52)%N). replace n with (52 + k)%N by (unfold k; lia).
    replace (byte_at alphabet (N.to_nat (52 + k))) with (ascii_of_N (48 + k)); [constructor; unfold k; lia|].
    assert (E : forallb (fun k => Ascii.eqb (ascii_of_N (48 + k)) (byte_at alphabet (N.to_nat (52 + k)))) (map N.of_nat (seq 0 10)) = true) by (vm_compute; reflexivity).
    rewrite forallb_forall in E. apply Ascii.eqb_eq. apply E. apply in_map_iff. exists (N.to_nat k). split; [apply N2Nat.id|]. apply in_seq. unfold k. lia.
Qed.
Lemma all_small : forall b (P : N -> bool), forallb P (map N.of_nat (seq 0 b)) = true -> forall k, (k < N.of_nat b)%N -> P k = true.
Proof.
  intros b P E k H. rewrite forallb_forall in E. apply E. apply in_map_iff. exists (N.to_nat k). split; [apply N2Nat.id|]. apply in_seq. lia.
Qed.
Definition opt_N_eqb (a : option N) (n : N) : bool := match a with Some m => N.eqb m n | None => false end.
Lemma opt_N_eq : forall a n, opt_N_eqb a n = true -> a = Some n.
Proof. intros [m|] n H; [|discriminate]. cbn in H. apply N.eqb_eq in H. congruence. Qed.
Lemma map_symbol : forall c n, decode_map64 c = Some n <-> symbol_of c n.
Proof.
  intros c n. split.
  - intro H. rewrite <- (ascii_N_embedding c) in H |- *. set (k := N_of_ascii c) in *. assert (L := byte_small c). fold k in L. clearbody k. revert n H.
    assert (E : forallb (fun k => match decode_map64 (ascii_of_N k) with Some n => N.ltb n 64 && Ascii.eqb (byte_at alphabet (N.to_nat n)) (ascii_of_N k) | None => true end)
      (map N.of_nat (seq 0 256)) = true) by (vm_compute; reflexivity).
    intros n H. assert (X := all_small 256 _ E k L). cbn beta in X. rewrite H in X. apply andb_true_iff in X. destruct X as [X1 X2].
    apply N.ltb_lt in X1. apply Ascii.eqb_eq in X2. rewrite <- X2. apply symbol_char. exact X1.
  - intro H. destruct H as [k K|k K|k K| |]; try reflexivity; apply opt_N_eq.
    + exact (all_small 26 (fun k => opt_N_eqb (decode_map64 (ascii_of_N (65 + k))) k) ltac:(vm_compute; reflexivity) k K).
    + exact (all_small 26 (fun k => opt_N_eqb (decode_map64 (ascii_of_N (97 + k))) (26 + k)) ltac:(vm_compute; reflexivity) k K).
    + exact (all_small 10 (fun k => opt_N_eqb (decode_map64 (ascii_of_N (48 + k))) (52 + k)) ltac:(vm_compute; reflexivity) k K).
Qed.
Lemma symbol_small : forall c n, symbol_of c n -> (n < 64)%N.
Proof. intros c n H. destruct H; lia. Qed.
Lemma symbol_spec : forall val k, symbol_of (symbol val k) (N.land (N.shiftr val k) 63).
Proof.
  intros val k. apply symbol_char. change 63%N with (N.ones 6). rewrite N.land_ones. apply N.mod_lt. discriminate.
Qed.

Lemma six_land : forall val k, six (N.land (N.shiftr val k) 63) = map (fun i => N.testbit val (i + k)) [5; 4; 3; 2; 1; 0]%N.
Proof.
  intros val k. unfold six. rewrite !N.land_spec, !N.shiftr_spec by lia. cbn [map]. rewrite !andb_true_r. reflexivity.
Qed.
Lemma shl_testbit : forall a k j, N.testbit (N.shiftl a k) j = if N.ltb j k then false else N.testbit a (j - k).
Proof.
  intros a k j. destruct (N.ltb_spec j k) as [H|H]; [apply N.shiftl_spec_low; exact H|apply N.shiftl_spec_high'; exact H].
Qed.
Ltac by_bits :=
  repeat (rewrite N.lor_spec || rewrite shl_testbit);
  cbv -[N.testbit N_of_ascii orb List.app];
  repeat match goal with |- context [N.testbit (N_of_ascii ?c) ?j] => rewrite (byte_high c j) by (vm_compute; discriminate) end; rewrite ?orb_false_r, ?orb_false_l.
Lemma word_bits : forall a b c, let v := word (N_of_ascii a) (N_of_ascii b) (N_of_ascii c) in
  six (N.land (N.shiftr v 18) 63) ++ six (N.land (N.shiftr v 12) 63) ++ six (N.land (N.shiftr v 6) 63) ++ six (N.land (N.shiftr v 0) 63)
  = byte_bits a ++ byte_bits b ++ byte_bits c.
Proof.
  intros a b c v. rewrite !six_land, !byte_testbits. unfold v, word. cbn [map app]. by_bits. reflexivity.
Qed.
Lemma two_bits : forall a b, let v := N.lor (N.shiftl (N_of_ascii a) 16) (N.shiftl (N_of_ascii b) 8) in
  six (N.land (N.shiftr v 18) 63) ++ six (N.land (N.shiftr v 12) 63) ++ six (N.land (N.shiftr v 6) 63)
  = byte_bits a ++ byte_bits b ++ [false; false].
Proof. intros a b v. rewrite !six_land, !byte_testbits. unfold v. cbn [map app]. by_bits. reflexivity. Qed.
Lemma one_bits : forall a, let v := N.shiftl (N_of_ascii a) 16 in
  six (N.land (N.shiftr v 18) 63) ++ six (N.land (N.shiftr v 12) 63) = byte_bits a ++ [false; false; false; false].
Proof. intros a v. rewrite !six_land, !byte_testbits. unfold v. cbn [map app]. by_bits. reflexivity. Qed.

Lemma by_three : forall P : string -> Prop, P "" -> (forall a, P (String a "")) -> (forall a b, P (String a (String b ""))) ->
  (forall a b c s, P s -> P (String a (String b (String c s)))) -> forall s, P s.
Proof.
  intros P H0 H1 H2 H3. fix IH 1. intros [|a [|b [|c s]]]; [exact H0|apply H1|apply H2|apply H3; apply IH].
Qed.
Lemma encode_spec : forall s, exists rest, base64 (encode64 s) s rest /\ forall b, In b rest -> b = false.
Proof.
  induction s as [|a|a b|a b c s (rest & (u & pad & E & S & P) & R)] using by_three.
  - exists []. split; [|intros ? []]. exists "", "". split; [reflexivity|]. split; [constructor|auto].
  - exists [false; false; false; false]. split; [|cbn; intuition congruence].
    eexists (String _ (String _ "")), "==". split; [reflexivity|]. split; [|cbn; auto].
    cbn [bits]. rewrite app_nil_r, <- one_bits. rewrite <- (app_nil_r (six (N.land (N.shiftr _ 12) 63))).
    constructor; [apply symbol_spec|]. constructor; [apply symbol_spec|constructor].
  - exists [false; false]. split; [|cbn; intuition congruence].
    eexists (String _ (String _ (String _ ""))), "=". split; [reflexivity|]. split; [|cbn; auto].
    cbn [bits]. rewrite app_nil_r, <- app_assoc, <- two_bits. rewrite <- (app_nil_r (six (N.land (N.shiftr _ 6) 63))).
    repeat (constructor; [apply symbol_spec|]). constructor.
  - exists rest. split; [|exact R]. eexists (String _ (String _ (String _ (String _ u)))), pad. split; [cbn [encode64]; rewrite E; reflexivity|]. split; [|exact P].
    cbn [bits]. replace ((byte_bits a ++ byte_bits b ++ byte_bits c ++ bits s) ++ rest) with ((byte_bits a ++ byte_bits b ++ byte_bits c) ++ bits s ++ rest) by (rewrite <- !app_assoc; reflexivity).
    rewrite <- word_bits, <- !app_assoc. repeat (constructor; [apply symbol_spec|]). exact S.
Qed.

(* ----- decoding ----- *)

Lemma ascii_bits : forall n, (n < 256)%N -> byte_bits (ascii_of_N n) = map (N.testbit n) [7; 6; 5; 4; 3; 2; 1; 0]%N.
Proof. intros n H. rewrite byte_testbits, N_ascii_embedding by exact H. reflexivity. Qed.
Lemma byte_of_bits : forall val k, byte_bits (byte_of val k) = map (fun i => N.testbit val (i + k)) [7; 6; 5; 4; 3; 2; 1; 0]%N.
Proof.
  intros val k. unfold byte_of. rewrite ascii_bits.
  - cbn [map]. rewrite !N.land_spec, !N.shiftr_spec by lia. rewrite !andb_true_r. reflexivity.
  - change 255%N with (N.ones 8). rewrite N.land_ones. apply N.mod_lt. discriminate.
Qed.
Lemma quad_bits : forall a b c d, (a < 64)%N -> (b < 64)%N -> (c < 64)%N -> (d < 64)%N ->
  byte_bits (byte_of (quad a b c d) 16) ++ byte_bits (byte_of (quad a b c d) 8) ++ byte_bits (byte_of (quad a b c d) 0)
  = six a ++ six b ++ six c ++ six d.
Proof.
  intros a b c d A B C D. rewrite !byte_of_bits. unfold quad, six. cbn [map].
  repeat (rewrite N.lor_spec || rewrite shl_testbit).
  cbv -[N.testbit orb List.app].
  repeat match goal with
  | |- context [N.testbit b ?j] => rewrite (small_high b 6 j B) by (vm_compute; discriminate)
  | |- context [N.testbit c ?j] => rewrite (small_high c 6 j C) by (vm_compute; discriminate)
  | |- context [N.testbit d ?j] => rewrite (small_high d 6 j D) by (vm_compute; discriminate)
  end. rewrite ?orb_false_r, ?orb_false_l. reflexivity.
Qed.

Definition sixes (l : list N) : list bool := flat_map six l.
Lemma sixes_len : forall l, List.length (sixes l) = 6 * List.length l.
Proof. induction l as [|n l IH]; [reflexivity|]. cbn [sixes flat_map List.length]. rewrite app_length. fold (sixes l). rewrite IH. cbn [six List.length]. lia. Qed.
Lemma symbols_len : forall s l, symbols s l -> List.length l = 6 * String.length s.
Proof. intros s l H. induction H; [reflexivity|]. rewrite app_length, IHsymbols. cbn [six List.length String.length]. lia. Qed.
Definition pads (pad : string) (rest : list bool) : Prop :=
  pad = "" /\ List.length rest = 0 \/ pad = "=" /\ List.length rest = 2 \/ pad = "==" /\ List.length rest = 4.
Definition says (buf : list N) (t s : string) : Prop :=
  exists u pad l rest, one_line t = u +++ pad /\ symbols u l /\ sixes buf ++ l = bits s ++ rest /\ pads pad rest.

Lemma skip_line : forall s, one_line (skip_newlines s) = one_line s.
Proof. induction s as [|c s IH]; [reflexivity|]. cbn [skip_newlines one_line]. unfold is_newline. destruct (_ || _) eqn:E; [exact IH|]. cbn [one_line]. rewrite E. reflexivity. Qed.
Lemma skip_head : forall s, skip_newlines s = "" \/ exists c s', skip_newlines s = String c s' /\ is_newline c = false.
Proof.
  induction s as [|c s IH]; [auto|]. cbn [skip_newlines]. destruct (is_newline c) eqn:E; [exact IH|]. eauto.
Qed.
Lemma skip_empty : forall s, skip_newlines s = "" <-> one_line s = "".
Proof.
  intro s. rewrite <- (skip_line s). destruct (skip_head s) as [E|(c & s' & E & N)]; rewrite E.
  - split; reflexivity.
  - cbn [one_line]. unfold is_newline in N. rewrite N. split; discriminate.
Qed.
Lemma not_symbol : forall c, decode_map64 c = None -> forall n, ~ symbol_of c n.
Proof. intros c H n S. apply map_symbol in S. congruence. Qed.
Lemma three : forall (buf : list N), List.length buf <= 3 -> buf = [] \/ (exists a, buf = [a]) \/ (exists a b, buf = [a; b]) \/ exists a b c, buf = [a; b; c].
Proof. intros [|a [|b [|c [|d l]]]] H; cbn in H; try lia; eauto 10. Qed.
Lemma pads_len : forall pad rest, pads pad rest -> List.length rest <= 4.
Proof. intros pad rest [(_ & ->)|[(_ & ->)|(_ & ->)]]; lia. Qed.

Lemma decode_spec : forall t buf s, List.length buf <= 3 -> (forall n, In n buf -> (n < 64)%N) ->
  (decode64 buf t = Some s <-> says buf t s).
Proof.
  induction t as [|c t IH]; intros buf s L Sm.
  - cbn [decode64]. split.
    + destruct buf as [|]; [|discriminate]. intro H. injection H as <-. exists "", "", [], []. repeat split; [constructor|left; auto].
    + intros (u & pad & l & rest & E & S & B & P). cbn [one_line] in E.
      destruct u as [|x u]; [|discriminate]. cbn in E. subst pad. inversion S; subst l. rewrite app_nil_r in B.
      destruct P as [(_ & R)|[(Q & _)|(Q & _)]]; try discriminate. destruct rest; [|discriminate]. rewrite app_nil_r in B.
      assert (X := f_equal (@List.length bool) B). rewrite sixes_len, bits_len in X.
      destruct buf as [|? ?]; [|cbn [List.length] in *; lia]. cbn in X. destruct s; [reflexivity|cbn in X; lia].
  - cbn [decode64]. destruct (decode_map64 c) as [d|] eqn:D.
    + apply map_symbol in D. assert (Ds := symbol_small _ _ D).
      assert (Nl : (Ascii.eqb c "010" || Ascii.eqb c "013") = false).
      { destruct (Ascii.eqb c "010") eqn:E1; [apply Ascii.eqb_eq in E1; subst c; apply map_symbol in D; discriminate|].
        destruct (Ascii.eqb c "013") eqn:E2; [apply Ascii.eqb_eq in E2; subst c; apply map_symbol in D; discriminate|]. reflexivity. }
      assert (Split : forall b r, says b (String c t) r <-> says (b ++ [d]) t r).
      { intros b r. unfold says. cbn [one_line]. rewrite Nl. unfold sixes. rewrite flat_map_app. cbn [flat_map]. split.
        - intros (u & pad & l & rest & E & S & B & P). destruct u as [|x u].
          + exfalso. cbn in E. destruct P as [(-> & _)|[(-> & _)|(-> & _)]]; try discriminate; injection E as -> _; apply map_symbol in D; discriminate.
          + cbn in E. injection E as -> E. inversion S as [|? n ? l' Sn S']; subst. apply map_symbol in Sn, D. assert (n = d) by congruence. subst n.
            exists u, pad, l', rest. repeat split; auto. rewrite app_nil_r, <- app_assoc. exact B.
        - intros (u & pad & l & rest & E & S & B & P). exists (String c u), pad, (six d ++ l), rest. split; [cbn; rewrite E; reflexivity|].
          split; [constructor; assumption|]. split; [|exact P]. rewrite app_nil_r, <- app_assoc in B. exact B. }
      destruct (three buf L) as [->|[(a & ->)|[(a & b & ->)|(a & b & e & ->)]]].
      1-3: rewrite Split; apply IH; [cbn; lia|]; intros n J; apply in_app_iff in J; destruct J as [J|[<-|[]]]; auto.
      rewrite Split. cbn [app].
      assert (A : (a < 64)%N) by (apply Sm; cbn; auto). assert (B : (b < 64)%N) by (apply Sm; cbn; auto). assert (C : (e < 64)%N) by (apply Sm; cbn; auto).
      assert (Q := quad_bits a b e d A B C Ds).
      assert (Group : forall x y z r, byte_bits x ++ byte_bits y ++ byte_bits z = sixes [a; b; e; d] ->
        (says [a; b; e; d] t (String x (String y (String z r))) <-> says [] t r)).
      { intros x y z r X. unfold says. split; intros (u & pad & l & rest & E & S & Y & P); exists u, pad, l, rest; repeat split; auto.
        - cbn [bits] in Y. rewrite <- !app_assoc in Y. rewrite <- X, <- !app_assoc in Y. do 3 (apply app_inv_head in Y). exact Y.
        - cbn [bits]. cbn in Y. rewrite <- !app_assoc, <- X, <- !app_assoc. rewrite <- Y. reflexivity. }
      assert (Q' : byte_bits (byte_of (quad a b e d) 16) ++ byte_bits (byte_of (quad a b e d) 8) ++ byte_bits (byte_of (quad a b e d) 0) = sixes [a; b; e; d]).
      { rewrite Q. cbn [sixes flat_map]. rewrite app_nil_r. reflexivity. }
      split.
      * intro H. destruct (decode64 [] t) as [r|] eqn:R; [|discriminate]. injection H as <-. apply Group; [exact Q'|]. apply IH; [cbn; lia|intros ? []|exact R].
      * intro H. assert (H' := H). destruct H' as (u & pad & l & rest & E & S & Y & P).
        assert (X := f_equal (@List.length bool) Y). rewrite !app_length, sixes_len, bits_len in X. apply pads_len in P. cbn [List.length] in X.
        destruct s as [|x [|y [|z r]]]; cbn [String.length] in X; try lia.
        assert (Y' : byte_bits x ++ byte_bits y ++ byte_bits z = sixes [a; b; e; d]).
        { cbn [bits] in Y. rewrite <- !app_assoc in Y.
          replace (byte_bits x ++ byte_bits y ++ byte_bits z ++ bits r ++ rest) with ((byte_bits x ++ byte_bits y ++ byte_bits z) ++ bits r ++ rest) in Y by (rewrite <- !app_assoc; reflexivity).
          apply app_same in Y; [symmetry; apply Y|]. rewrite !app_length, !byte_len, sixes_len. reflexivity. }
        apply (Group x y z r Y') in H. apply IH in H; [|cbn; lia|intros ? []]. rewrite H.
        rewrite <- Y' in Q'. apply app_same in Q'; [|rewrite !byte_len; reflexivity]. destruct Q' as [E1 Q'].
        apply app_same in Q'; [|rewrite !byte_len; reflexivity]. destruct Q' as [E2 E3].
        rewrite (byte_bits_inj _ _ E1), (byte_bits_inj _ _ E2), (byte_bits_inj _ _ E3). reflexivity.
    + destruct (is_newline c) eqn:Nl.
      { rewrite IH by assumption. unfold says. cbn [one_line]. unfold is_newline in Nl. rewrite Nl. reflexivity. }
      assert (Line : one_line (String c t) = String c (one_line t)) by (cbn [one_line]; unfold is_newline in Nl; rewrite Nl; reflexivity).
      assert (Head : forall b r, says b (String c t) r <-> exists pad rest, String c (one_line t) = pad /\ sixes b = bits r ++ rest /\ pads pad rest).
      { intros b r. unfold says. rewrite Line. split.
        - intros (u & pad & l & rest & E & S & B & P). destruct u as [|x u].
          + cbn in E. inversion S; subst l. rewrite app_nil_r in B. eauto.
          + exfalso. cbn in E. injection E as <- _. inversion S as [|? n0 ? ? Sn ?]; subst. exact (not_symbol c D n0 Sn).
        - intros (pad & rest & E & B & P). exists "", pad, [], rest. split; [exact E|]. split; [constructor|]. rewrite app_nil_r. auto. }
      rewrite Head. destruct (Ascii.eqb c "=") eqn:Eq; cbn [negb].
      2:{ split; [discriminate|]. intros (pad & rest & E & B & P). exfalso. apply Ascii.eqb_neq in Eq.
          destruct P as [(-> & _)|[(-> & _)|(-> & _)]]; try discriminate; injection E as -> _; exact (Eq eq_refl). }
      apply Ascii.eqb_eq in Eq. subst c.
      assert (Len : forall r rest, sixes buf = bits r ++ rest -> 6 * List.length buf = 8 * String.length r + List.length rest).
      { intros r rest B. apply (f_equal (@List.length bool)) in B. rewrite sixes_len, app_length, bits_len in B. exact B. }
      destruct (three buf L) as [->|[(a & ->)|[(a & b & ->)|(a & b & e & ->)]]].
      * split; [discriminate|]. intros (pad & rest & E & B & P). apply Len in B. cbn [List.length] in B.
        destruct P as [(-> & R)|[(-> & R)|(-> & R)]]; try discriminate; lia.
      * split; [discriminate|]. intros (pad & rest & E & B & P). apply Len in B. cbn [List.length] in B.
        destruct P as [(-> & R)|[(-> & R)|(-> & R)]]; try discriminate; lia.
      * assert (A : (a < 64)%N) by (apply Sm; cbn; auto). assert (B : (b < 64)%N) by (apply Sm; cbn; auto).
        assert (Q := quad_bits a b 0 0 A B ltac:(reflexivity) ltac:(reflexivity)).
        assert (R1 : sixes [a; b] = byte_bits (byte_of (quad a b 0 0) 16) ++ skipn 8 (sixes [a; b])).
        { replace (byte_bits (byte_of (quad a b 0 0) 16)) with (firstn 8 (sixes [a; b])); [symmetry; apply firstn_skipn|].
          apply (f_equal (firstn 8)) in Q. rewrite firstn_app, byte_len, Nat.sub_diag, firstn_O, app_nil_r in Q.
          rewrite (firstn_all2 (n := 8) (byte_bits _)) in Q by (rewrite byte_len; lia). rewrite Q. reflexivity. }
        assert (Tail : forall r, (match skip_newlines t with
             | String c' s'' => if Ascii.eqb c' "=" then match skip_newlines s'' with "" => Some r | _ => None end else None
             | "" => None end = Some s) <-> one_line t = "=" /\ s = r).
        { intro r. rewrite <- (skip_line t). destruct (skip_head t) as [E|(x & t' & E & N)]; rewrite E.
          - split; [discriminate|intros [? _]; discriminate].
          - cbn [one_line]. unfold is_newline in N. rewrite N. destruct (Ascii.eqb x "=") eqn:Q1.
            + apply Ascii.eqb_eq in Q1. subst x. destruct (skip_newlines t') as [|y w] eqn:Q2.
              * assert (O : one_line t' = "") by (apply skip_empty; exact Q2). rewrite O. split; [intro H; injection H as <-; auto|intros [_ <-]; reflexivity].
              * split; [discriminate|]. intros [H _]. injection H as H. apply skip_empty in H. congruence.
            + split; [discriminate|]. intros [H _]. injection H as -> _. discriminate. }
        rewrite Tail. split.
        -- intros [E ->]. exists "==", (skipn 8 (sixes [a; b])). rewrite E. split; [reflexivity|]. split; [cbn [bits]; rewrite app_nil_r; exact R1|]. right. right. auto.
        -- intros (pad & rest & E & Y & P). assert (Y' := Len _ _ Y). cbn [List.length] in Y'.
           destruct P as [(-> & R)|[(-> & R)|(-> & R)]]; try discriminate; try lia.
           injection E as E. split; [exact E|]. rewrite R in Y'. destruct s as [|x [|]]; cbn [String.length] in Y'; try lia.
           cbn [bits] in Y. rewrite app_nil_r in Y. rewrite R1 in Y. apply app_same in Y; [|rewrite !byte_len; reflexivity].
           rewrite (byte_bits_inj _ _ (proj1 Y)). reflexivity.
      * assert (A : (a < 64)%N) by (apply Sm; cbn; auto). assert (B : (b < 64)%N) by (apply Sm; cbn; auto). assert (C : (e < 64)%N) by (apply Sm; cbn; auto).
        assert (Q := quad_bits a b e 0 A B C ltac:(reflexivity)).
        assert (R1 : sixes [a; b; e] = (byte_bits (byte_of (quad a b e 0) 16) ++ byte_bits (byte_of (quad a b e 0) 8)) ++ skipn 16 (sixes [a; b; e])).
        { replace (byte_bits (byte_of (quad a b e 0) 16) ++ byte_bits (byte_of (quad a b e 0) 8)) with (firstn 16 (sixes [a; b; e])); [symmetry; apply firstn_skipn|].
          rewrite app_assoc in Q. apply (f_equal (firstn 16)) in Q. rewrite firstn_app in Q.
          rewrite (firstn_all2 (n := 16) (byte_bits _ ++ byte_bits _)) in Q by (rewrite app_length, !byte_len; lia).
          rewrite app_length, !byte_len in Q. cbn [Nat.add Nat.sub firstn] in Q. rewrite app_nil_r in Q. rewrite Q. reflexivity. }
        assert (Tail : forall r, (match skip_newlines t with "" => Some r | _ => None end = Some s) <-> one_line t = "" /\ s = r).
        { intro r. rewrite <- (skip_empty t). destruct (skip_newlines t) as [|y w].
          - split; [intro H; injection H as <-; auto|intros [_ <-]; reflexivity].
          - split; [discriminate|intros [H _]; discriminate]. }
        rewrite Tail. split.
        -- intros [E ->]. exists "=", (skipn 16 (sixes [a; b; e])). rewrite E. split; [reflexivity|]. split; [cbn [bits]; rewrite app_nil_r; exact R1|]. right. left. auto.
        -- intros (pad & rest & E & Y & P). assert (Y' := Len _ _ Y). cbn [List.length] in Y'.
           destruct P as [(-> & R)|[(-> & R)|(-> & R)]]; try discriminate; try lia.
           injection E as E. split; [exact E|]. rewrite R in Y'. destruct s as [|x [|y [|]]]; cbn [String.length] in Y'; try lia.
           cbn [bits] in Y. rewrite app_nil_r in Y. rewrite R1 in Y. apply app_same in Y; [|rewrite !app_length, !byte_len; reflexivity].
           destruct Y as [Y _]. apply app_same in Y; [|rewrite !byte_len; reflexivity]. destruct Y as [Y1 Y2].
           rewrite (byte_bits_inj _ _ Y1), (byte_bits_inj _ _ Y2). reflexivity.
Qed.
Lemma decode_iff : forall t s, decode64 [] t = Some s <-> exists rest, base64 (one_line t) s rest.
Proof.
  intros t s. rewrite decode_spec by (cbn; (lia || intros ? [])). unfold says, base64. cbn [sixes flat_map app]. split.
  - intros (u & pad & l & rest & E & S & B & P). subst l. exists rest, u, pad. auto.
  - intros (rest & u & pad & E & S & P). exists u, pad, (bits s ++ rest), rest. auto.
Qed.
Lemma symbol_line : forall c n, symbol_of c n -> Ascii.eqb c "010" || Ascii.eqb c "013" = false /\ (N_of_ascii c < 128)%N.
Proof.
  intros c n H. apply map_symbol in H. rewrite <- (ascii_N_embedding c) in H |- *. assert (L := byte_small c). revert n H.
  assert (X := all_small 256 (fun k => match decode_map64 (ascii_of_N k) with
     Some _ => negb (Ascii.eqb (ascii_of_N k) "010" || Ascii.eqb (ascii_of_N k) "013") && N.ltb (N_of_ascii (ascii_of_N k)) 128 | None => true end) ltac:(vm_compute; reflexivity) _ L).
  cbn beta in X. intros n H. rewrite H in X. apply andb_true_iff in X. destruct X as [X1 X2]. apply negb_true_iff in X1. apply N.ltb_lt in X2. auto.
Qed.
Lemma base64_line : forall t s rest, base64 t s rest -> one_line t = t /\ ascii_text t.
Proof.
  intros t s rest (u & pad & -> & S & P). remember (bits s ++ rest) as l eqn:E. clear E. induction S as [|c n u l Sn S IH].
  - destruct P as [(-> & _)|[(-> & _)|(-> & _)]]; (split; [reflexivity|]); repeat constructor.
  - destruct (symbol_line c n Sn) as [N A]. destruct IH as [IH1 IH2]. cbn. rewrite N, IH1. split; [reflexivity|]. constructor; assumption.
Qed.
Lemma decode_encode : forall s, decode64 [] (encode64 s) = Some s.
Proof.
  intro s. destruct (encode_spec s) as (rest & B & _). apply decode_iff. exists rest. rewrite (proj1 (base64_line _ _ _ B)). exact B.
Qed.
Lemma encode_ascii : forall s, ascii_text (encode64 s).
Proof. intro s. destruct (encode_spec s) as (rest & B & _). apply (base64_line _ _ _ B). Qed.

(* ----- UTF-8 ----- *)

Lemma byte_N : forall c, String c "" = byte (N_of_ascii c).
Proof. intro c. unfold byte. rewrite ascii_N_embedding. reflexivity. Qed.
Lemma in_range_spec : forall lo hi c, in_range lo hi c = true <-> (lo <= N_of_ascii c <= hi)%N.
Proof. intros lo hi c. unfold in_range. rewrite andb_true_iff, !N.leb_le. reflexivity. Qed.
Ltac facts := repeat match goal with
  | H : _ && _ = true |- _ => apply andb_true_iff in H; destruct H
  | H : cont _ = true |- _ => unfold cont in H
  | H : in_range _ _ _ = true |- _ => apply in_range_spec in H
  | H : N.ltb _ _ = true |- _ => apply N.ltb_lt in H
  | H : N.ltb _ _ = false |- _ => apply N.ltb_ge in H
  | H : N.eqb _ _ = true |- _ => apply N.eqb_eq in H
  | H : N.eqb _ _ = false |- _ => apply N.eqb_neq in H
  end.
Lemma string_app : forall a s, String a s = String a "" +++ s.
Proof. reflexivity. Qed.
Lemma digits64 : forall q r, (r < 64)%N -> ((q * 64 + r) / 64 = q /\ (q * 64 + r) mod 64 = r)%N.
Proof.
  intros q r H. split.
  - symmetry. apply (N.div_unique _ _ q r); lia.
  - symmetry. apply (N.mod_unique _ _ q r); lia.
Qed.
Lemma two_bytes : forall x y, (194 <= x <= 223)%N -> (128 <= y <= 191)%N -> exists cp, scalar_value cp /\ utf8_of cp = byte x +++ byte y.
Proof.
  intros x y X Y. set (q := (x - 192)%N). set (r := (y - 128)%N). assert (R : (r < 64)%N) by (unfold r; lia).
  destruct (digits64 q r R) as [D M]. exists (q * 64 + r)%N. split; [left; unfold q; lia|]. unfold utf8_of.
  destruct (N.ltb_spec (q * 64 + r) 128) as [H|H]; [unfold q in H; lia|].
  destruct (N.ltb_spec (q * 64 + r) 2048) as [H'|H']; [|unfold q in H'; lia].
  rewrite D, M. replace (192 + q)%N with x by (unfold q; lia). replace (128 + r)%N with y by (unfold r; lia). reflexivity.
Qed.
Lemma div_div : forall n a b, (a <> 0 -> b <> 0 -> n / (a * b) = n / a / b)%N.
Proof. intros n a b A B. symmetry. apply N.div_div; assumption. Qed.
Lemma three_bytes : forall x y z, (224 <= x <= 239)%N -> (128 <= y <= 191)%N -> (128 <= z <= 191)%N ->
  (x = 224 -> 160 <= y)%N -> (x = 237 -> y <= 159)%N -> exists cp, scalar_value cp /\ utf8_of cp = byte x +++ byte y +++ byte z.
Proof.
  intros x y z X Y Z A B. set (p := (x - 224)%N). set (q := (y - 128)%N). set (r := (z - 128)%N).
  assert (Q : (q < 64)%N) by (unfold q; lia). assert (R : (r < 64)%N) by (unfold r; lia).
  destruct (digits64 p q Q) as [D M]. destruct (digits64 (p * 64 + q) r R) as [D' M'].
  set (cp := ((p * 64 + q) * 64 + r)%N) in *. assert (C : cp = (p * 4096 + q * 64 + r)%N) by (unfold cp; lia).
  exists cp. split; [unfold scalar_value, p, q in *; lia|]. unfold utf8_of.
  destruct (N.ltb_spec cp 128) as [H|H]; [unfold p, q in *; lia|].
  destruct (N.ltb_spec cp 2048) as [H1|H1]; [unfold p, q in *; lia|].
  destruct (N.ltb_spec cp 65536) as [H2|H2]; [|unfold p, q in *; lia].
  rewrite (div_div cp 64 64 ltac:(discriminate) ltac:(discriminate) : cp / 4096 = _)%N, D', M', D, M.
  replace (224 + p)%N with x by (unfold p; lia). replace (128 + q)%N with y by (unfold q; lia). replace (128 + r)%N with z by (unfold r; lia). reflexivity.
Qed.
Lemma four_bytes : forall x y z w, (240 <= x <= 244)%N -> (128 <= y <= 191)%N -> (128 <= z <= 191)%N -> (128 <= w <= 191)%N ->
  (x = 240 -> 144 <= y)%N -> (x = 244 -> y <= 143)%N -> exists cp, scalar_value cp /\ utf8_of cp = byte x +++ byte y +++ byte z +++ byte w.
Proof.
  intros x y z w X Y Z W A B. set (o := (x - 240)%N). set (p := (y - 128)%N). set (q := (z - 128)%N). set (r := (w - 128)%N).
  assert (P : (p < 64)%N) by (unfold p; lia). assert (Q : (q < 64)%N) by (unfold q; lia). assert (R : (r < 64)%N) by (unfold r; lia).
  destruct (digits64 o p P) as [D0 M0]. destruct (digits64 (o * 64 + p) q Q) as [D M]. destruct (digits64 ((o * 64 + p) * 64 + q) r R) as [D' M'].
  set (cp := (((o * 64 + p) * 64 + q) * 64 + r)%N) in *. assert (C : cp = (o * 262144 + p * 4096 + q * 64 + r)%N) by (unfold cp; lia).
  exists cp. split; [unfold scalar_value, o, p, q in *; lia|]. unfold utf8_of.
  destruct (N.ltb_spec cp 128) as [H|H]; [unfold o, p, q in *; lia|].
  destruct (N.ltb_spec cp 2048) as [H1|H1]; [unfold o, p, q in *; lia|].
  destruct (N.ltb_spec cp 65536) as [H2|H2]; [unfold o, p, q in *; lia|].
  rewrite (div_div cp 64 4096 ltac:(discriminate) ltac:(discriminate) : cp / 262144 = _)%N, (div_div cp 64 64 ltac:(discriminate) ltac:(discriminate) : cp / 4096 = _)%N.
  rewrite D', M', (div_div _ 64 64 ltac:(discriminate) ltac:(discriminate) : _ / 4096 = _)%N, D, M, D0, M0.
  replace (240 + o)%N with x by (unfold o; lia). replace (128 + p)%N with y by (unfold p; lia).
  replace (128 + q)%N with z by (unfold q; lia). replace (128 + r)%N with w by (unfold r; lia). reflexivity.
Qed.
Lemma utf8_sound : forall n s, String.length s <= n -> utf8_valid s = true -> utf8 s.
Proof.
  induction n as [|n IH]; intros s L H; [destruct s; [constructor|cbn in L; lia]|].
  destruct s as [|a s1]; [constructor|]. cbn [utf8_valid] in H. cbn [String.length] in L.
  destruct (N.ltb (N_of_ascii a) 128) eqn:A.
  { facts. rewrite string_app, byte_N. replace (byte (N_of_ascii a)) with (utf8_of (N_of_ascii a)).
    - apply u_cons; [left; lia|apply IH; [lia|exact H]].
    - unfold utf8_of. apply N.ltb_lt in A. rewrite A. reflexivity. }
  destruct s1 as [|b s2]; [discriminate|]. destruct (in_range 194 223 a) eqn:A2.
  { facts. destruct (two_bytes (N_of_ascii a) (N_of_ascii b)) as (cp & Sc & E); [lia|lia|].
    replace (String a (String b s2)) with (utf8_of cp +++ s2); [apply u_cons; [exact Sc|apply IH; [cbn in L; lia|assumption]]|].
    rewrite E. unfold byte. rewrite !ascii_N_embedding. reflexivity. }
  destruct s2 as [|c s3]; [discriminate|]. destruct (in_range 224 239 a) eqn:A3.
  { facts. destruct (three_bytes (N_of_ascii a) (N_of_ascii b) (N_of_ascii c)) as (cp & Sc & E); try lia.
    - destruct (N.eqb (N_of_ascii a) 224); [facts; lia|destruct (N.eqb (N_of_ascii a) 237); facts; lia].
    - intro X. rewrite X in *. cbn in *. facts. lia.
    - intro X. rewrite X in *. cbn in *. facts. lia.
    - replace (String a (String b (String c s3))) with (utf8_of cp +++ s3); [apply u_cons; [exact Sc|apply IH; [cbn in L; lia|assumption]]|].
      rewrite E. unfold byte. rewrite !ascii_N_embedding. reflexivity. }
  destruct s3 as [|d s4]; [discriminate|]. destruct (in_range 240 244 a) eqn:A4; [|discriminate].
  facts. destruct (four_bytes (N_of_ascii a) (N_of_ascii b) (N_of_ascii c) (N_of_ascii d)) as (cp & Sc & E); try lia.
  - destruct (N.eqb (N_of_ascii a) 240); [facts; lia|destruct (N.eqb (N_of_ascii a) 244); facts; lia].
  - intro X. rewrite X in *. cbn in *. facts. lia.
  - intro X. rewrite X in *. cbn in *. facts. lia.
  - replace (String a (String b (String c (String d s4)))) with (utf8_of cp +++ s4); [apply u_cons; [exact Sc|apply IH; [cbn in L; lia|assumption]]|].
    rewrite E. unfold byte. rewrite !ascii_N_embedding. reflexivity.
Qed.
Lemma in_range_true : forall lo hi n, (n < 256)%N -> (lo <= n <= hi)%N -> in_range lo hi (ascii_of_N n) = true.
Proof. intros lo hi n B H. apply in_range_spec. rewrite N_ascii_embedding by exact B. exact H. Qed.
Lemma in_range_false : forall lo hi n, (n < 256)%N -> (n < lo \/ hi < n)%N -> in_range lo hi (ascii_of_N n) = false.
Proof.
  intros lo hi n B H. destruct (in_range lo hi (ascii_of_N n)) eqn:E; [|reflexivity]. apply in_range_spec in E. rewrite N_ascii_embedding in E by exact B. lia.
Qed.
Lemma utf8_complete : forall s, utf8 s -> utf8_valid s = true.
Proof.
  intros s H. induction H as [|cp s Sc H IH]; [reflexivity|]. unfold utf8_of. unfold scalar_value in Sc.
  rewrite (div_div cp 64 4096 ltac:(discriminate) ltac:(discriminate) : cp / 262144 = _)%N, (div_div cp 64 64 ltac:(discriminate) ltac:(discriminate) : cp / 4096 = _)%N.
  rewrite (div_div _ 64 64 ltac:(discriminate) ltac:(discriminate) : _ / 4096 = _)%N.
  assert (E0 := N.div_mod cp 64 ltac:(discriminate)). assert (R0 := N.mod_lt cp 64 ltac:(discriminate)).
  set (q0 := (cp / 64)%N) in *. set (r0 := (cp mod 64)%N) in *. clearbody q0 r0.
  assert (E1 := N.div_mod q0 64 ltac:(discriminate)). assert (R1 := N.mod_lt q0 64 ltac:(discriminate)).
  set (q1 := (q0 / 64)%N) in *. set (r1 := (q0 mod 64)%N) in *. clearbody q1 r1.
  assert (E2 := N.div_mod q1 64 ltac:(discriminate)). assert (R2 := N.mod_lt q1 64 ltac:(discriminate)).
  set (q2 := (q1 / 64)%N) in *. set (r2 := (q1 mod 64)%N) in *. clearbody q2 r2.
  destruct (N.ltb_spec cp 128) as [L|L].
  { unfold byte. cbn [String.append utf8_valid]. rewrite N_ascii_embedding by lia. apply N.ltb_lt in L. rewrite L. exact IH. }
  destruct (N.ltb_spec cp 2048) as [L1|L1].
  { unfold byte. cbn [String.append utf8_valid]. rewrite N_ascii_embedding by lia.
    destruct (N.ltb_spec (192 + q0) 128) as [X|X]; [lia|]. rewrite in_range_true by lia. unfold cont. rewrite in_range_true by lia. exact IH. }
  destruct (N.ltb_spec cp 65536) as [L2|L2].
  { unfold byte. cbn [String.append utf8_valid]. rewrite N_ascii_embedding by lia.
    destruct (N.ltb_spec (224 + q1) 128) as [X|X]; [lia|]. rewrite (in_range_false 194 223), (in_range_true 224 239) by lia. unfold cont.
    rewrite (in_range_true 128 191 (128 + r0)), IH by lia. rewrite !andb_true_r.
    destruct (N.eqb_spec (224 + q1) 224) as [Y|Y]; [apply in_range_true; lia|].
    destruct (N.eqb_spec (224 + q1) 237) as [Z|Z]; apply in_range_true; lia. }
  unfold byte. cbn [String.append utf8_valid]. rewrite N_ascii_embedding by lia.
  destruct (N.ltb_spec (240 + q2) 128) as [X|X]; [lia|]. rewrite (in_range_false 194 223), (in_range_false 224 239), (in_range_true 240 244) by lia. unfold cont.
  rewrite (in_range_true 128 191 (128 + r1)), (in_range_true 128 191 (128 + r0)), IH by lia. rewrite !andb_true_r.
  destruct (N.eqb_spec (240 + q2) 240) as [Y|Y]; [apply in_range_true; lia|].
  destruct (N.eqb_spec (240 + q2) 244) as [Z|Z]; apply in_range_true; lia.
Qed.
Lemma utf8_iff : forall s, utf8_valid s = true <-> utf8 s.
Proof. intro s. split; [apply (utf8_sound (String.length s)); lia|apply utf8_complete]. Qed.

(* ----- forms and hexadecimal ----- *)

Lemma hex_value : forall h x y, hex_digit h x -> hex_digit h y -> x = y.
Proof.
  assert (X : forall h x, hex_digit h x -> N_of_ascii h = (48 + x)%N /\ (x < 10)%N \/ (N_of_ascii h = (55 + x)%N \/ N_of_ascii h = (87 + x)%N) /\ (10 <= x < 16)%N).
  { intros h x H. destruct H as [k K|k K|k K]; rewrite N_ascii_embedding by lia; lia. }
  intros h x y Hx Hy. apply X in Hx, Hy. lia.
Qed.
Lemma form_unique : forall t s, form_text t s -> forall s', form_text t s' -> s = s'.
Proof.
  intros t s H. induction H as [|c t s P Q H IH|t s H IH|h l x y t s X Y H IH]; intros s' H'.
  - inversion H'. reflexivity.
  - inversion H' as [|? ? ? ? ? G|? ? G|? ? ? ? ? ? ? ? G]; subst; try congruence. rewrite (IH _ G). reflexivity.
  - inversion H' as [|? ? ? A ? G|? ? G|]; subst; [congruence|]. rewrite (IH _ G). reflexivity.
  - inversion H' as [|? ? ? A B G|? ? G|? ? x' y' ? ? X' Y' G]; subst; [congruence|]. rewrite (hex_value _ _ _ X X'), (hex_value _ _ _ Y Y'), (IH _ G). reflexivity.
Qed.
Lemma hex_byte : forall c, ascii_of_N (16 * N.shiftr (N_of_ascii c) 4 + N.land (N_of_ascii c) 15) = c.
Proof. intro c. rewrite <- (ascii_N_embedding c) at 3. f_equal. change 15%N with (N.ones 4). rewrite N.shiftr_div_pow2, N.land_ones. change (2 ^ 4)%N with 16%N.
  symmetry. apply N.div_mod. discriminate.
Qed.
Lemma nibbles : forall c, (N.shiftr (N_of_ascii c) 4 < 16)%N /\ (N.land (N_of_ascii c) 15 < 16)%N.
Proof.
  intro c. change 15%N with (N.ones 4). rewrite N.shiftr_div_pow2, N.land_ones. change (2 ^ 4)%N with 16%N. assert (H := byte_small c).
  split; [apply N.div_lt_upper_bound; [discriminate|exact H]|apply N.mod_lt; discriminate].
Qed.
Lemma upper_digit : forall n, (n < 16)%N -> hex_digit (upper_hex n) n /\ safe_char (upper_hex n).
Proof.
  intros n H.
  assert (C : (n < 10 \/ 10 <= n)%N) by lia. destruct C as [C|C].
  - replace (upper_hex n) with (ascii_of_N (48 + n)); [split; constructor; exact C|].
    apply Ascii.eqb_eq. exact (all_small 10 (fun n => Ascii.eqb (ascii_of_N (48 + n)) (upper_hex n)) ltac:(vm_compute; reflexivity) n C).
  - set (k := (n - 10)%N). assert (K : (k < 6)%N) by (unfold k; lia). replace n with (10 + k)%N by (unfold k; lia).
    replace (upper_hex (10 + k)) with (ascii_of_N (65 + k)); [split; constructor; lia|].
    apply Ascii.eqb_eq. exact (all_small 6 (fun k => Ascii.eqb (ascii_of_N (65 + k)) (upper_hex (10 + k))) ltac:(vm_compute; reflexivity) k K).
Qed.
Lemma lower_digit : forall n, (n < 16)%N -> small_digit (lower_hex n) n.
Proof.
  intros n H. assert (C : (n < 10 \/ 10 <= n)%N) by lia. destruct C as [C|C].
  - replace (lower_hex n) with (ascii_of_N (48 + n)); [split; [constructor; exact C|rewrite N_ascii_embedding by lia; lia]|].
    apply Ascii.eqb_eq. exact (all_small 10 (fun n => Ascii.eqb (ascii_of_N (48 + n)) (lower_hex n)) ltac:(vm_compute; reflexivity) n C).
  - set (k := (n - 10)%N). assert (K : (k < 6)%N) by (unfold k; lia). replace n with (10 + k)%N by (unfold k; lia).
    replace (lower_hex (10 + k)) with (ascii_of_N (97 + k)); [split; [constructor; lia|rewrite N_ascii_embedding by lia; lia]|].
    apply Ascii.eqb_eq. exact (all_small 6 (fun k => Ascii.eqb (ascii_of_N (97 + k)) (lower_hex (10 + k))) ltac:(vm_compute; reflexivity) k K).
Qed.
Lemma keeps_safe : forall c, keeps c = true -> safe_char c /\ c <> "+"%char /\ c <> "%"%char.
Proof.
  intros c H. unfold keeps in H.
  assert (A : forall lo k, (lo <= N_of_ascii c <= lo + k)%N -> exists j, (j <= k)%N /\ c = ascii_of_N (lo + j)).
  { intros lo k R. exists (N_of_ascii c - lo)%N. split; [lia|]. replace (lo + (N_of_ascii c - lo))%N with (N_of_ascii c) by lia. symmetry. apply ascii_N_embedding. }
  assert (B : forall x y : ascii, N_of_ascii x <> N_of_ascii y -> x <> y) by congruence.
  repeat (apply orb_true_iff in H; destruct H as [H|H]);
    try (apply Ascii.eqb_eq in H; subst c; split; [apply sc_mark; auto|split; discriminate]); apply in_range_spec in H.
  - split; [|split; apply B; cbn; lia]. destruct (A 97 25 ltac:(lia))%N as (j & J & ->). apply sc_lower. lia.
  - split; [|split; apply B; cbn; lia]. destruct (A 65 25 ltac:(lia))%N as (j & J & ->). apply sc_upper. lia.
  - split; [|split; apply B; cbn; lia]. destruct (A 48 9 ltac:(lia))%N as (j & J & ->). apply sc_digit. lia.
Qed.
Lemma escape_form : forall s, form_text (query_escape s) s.
Proof.
  induction s as [|c s IH]; [constructor|]. cbn [query_escape]. destruct (Ascii.eqb c " ") eqn:E.
  - apply Ascii.eqb_eq in E. subst c. constructor. exact IH.
  - destruct (keeps c) eqn:K.
    + apply keeps_safe in K. constructor; [apply K|apply K|exact IH].
    + destruct (nibbles c) as [N1 N2]. rewrite <- (hex_byte c) at 3. constructor; [apply upper_digit; exact N1|apply upper_digit; exact N2|exact IH].
Qed.
Lemma escape_safe : forall s, all_chars safe_char (query_escape s).
Proof.
  induction s as [|c s IH]; [constructor|]. cbn [query_escape]. destruct (Ascii.eqb c " "); [constructor; [apply sc_mark; auto 7|exact IH]|].
  destruct (keeps c) eqn:K; [constructor; [apply (keeps_safe c K)|exact IH]|].
  destruct (nibbles c) as [N1 N2]. constructor; [apply sc_mark; auto 7|]. constructor; [apply upper_digit; exact N1|]. constructor; [apply upper_digit; exact N2|exact IH].
Qed.
Lemma hex_spec : forall s, hex_text (encode_hex s) s.
Proof.
  induction s as [|c s IH]; [constructor|]. cbn [encode_hex]. destruct (nibbles c) as [N1 N2]. rewrite <- (hex_byte c) at 3.
  constructor; [apply lower_digit; exact N1|apply lower_digit; exact N2|exact IH].
Qed.
Lemma safe_ascii : forall s, all_chars safe_char s -> ascii_text s.
Proof.
  intros s H. induction H as [|c s C H IH]; constructor; [|exact IH].
  destruct C as [k K|k K|k K|c C]; try (rewrite N_ascii_embedding by lia; lia).
  decompose [or] C; subst; reflexivity.
Qed.
Lemma hex_ascii : forall t s, hex_text t s -> ascii_text t.
Proof.
  intros t s H. induction H as [|h l x y t s X Y H IH]; [constructor|].
  assert (D : forall h x, hex_digit h x -> (N_of_ascii h < 128)%N) by (intros h' x' H'; destruct H'; rewrite N_ascii_embedding by lia; lia).
  constructor; [exact (D _ _ (proj1 X))|]. constructor; [exact (D _ _ (proj1 Y))|exact IH].
Qed.
