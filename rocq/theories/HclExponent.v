(* Literals with an exponent through HCL text. *)

From Verif Require Import Base CtyModel CtySpec CtyProofs CtyProofs2 HclModel HclSpec HclNumber
  HclDecode HclParse HclRound HclGrammar HclLex HclGrammarProofs HclFraction.
From Coq Require Import Lia.
Local Open Scope nat_scope.

Lemma digit_range : forall c d, digit c d -> (0 <= d)%Z.
Proof. intros c d (i & _ & ->). lia. Qed.
Lemma digits_range : forall z t m, digits z t m -> (0 <= z)%Z -> (0 <= m)%Z.
Proof. intros z t m H. induction H as [z|z c d t m D H IH]; intro Z0; [exact Z0|]. apply IH. apply digit_range in D. lia. Qed.
Lemma power_range : forall m e n j, power_of_ten m e n j -> (0 <= m)%Z -> (0 <= n)%Z.
Proof. intros m e n j [(_ & -> & _)|(_ & -> & _)] H; [apply Z.mul_nonneg_nonneg; [exact H|apply Z.pow_nonneg; lia]|exact H]. Qed.

Lemma ident_word : forall k, ident k -> word k.
Proof.
  intros [|c k] H; [contradiction|]. destruct H as [H1 H2]. exists c, k. split; [reflexivity|].
  split; [apply memb_spec; rewrite <- start_word; exact H1|apply only_word; exact H2].
Qed.
Lemma attr_document : forall k t x e, body_key k -> token_text t x -> (forall r, ends t (nl +++ r)) -> g_expr [t] e ->
  decode_map (doc_text [k +++ " = " +++ x]) = decode_body [IAttr k e].
Proof.
  intros k t x e K T E G. apply document_decoded; [|discriminate].
  exists [TNl; TIdent k; TEq; t; TNl]. split.
  - replace (doc_text [k +++ " = " +++ x]) with ("" +++ nl +++ ("  " +++ k +++ (" " +++ "=" +++ (" " +++ x +++ ("" +++ nl +++ "")))))
      by (unfold doc_text; cbn [lead join String.append]; rewrite !append_assoc; cbn [String.append]; reflexivity).
    apply sp_more; [apply gp_none|apply tx_sym; cbn; tauto|intros ? ? ?; exact Logic.I|].
    apply sp_more; [apply gp_blank; [left; reflexivity|apply gp_blank; [left; reflexivity|apply gp_none]]|apply tx_word, ident_word, K| |].
    { intros c r X. injection X as <- _. apply word_char_not. reflexivity. }
    apply sp_more; [apply gp_blank; [left; reflexivity|apply gp_none]|apply tx_sym; cbn; tauto| |].
    { intros c r X. injection X as <- _. discriminate. }
    apply sp_more; [apply gp_blank; [left; reflexivity|apply gp_none]|exact T|apply E|].
    apply sp_more; [apply gp_none|apply tx_sym; cbn; tauto|intros ? ? ?; exact Logic.I|]. apply sp_end, gp_none.
  - apply gb_nl. apply (gb_more false [TIdent k; TEq; t] (IAttr k e) [] []); [apply gim_attr; exact G|constructor|].
    intros k' e1 e2 _ [].
Qed.

Theorem exponent_read : forall k a f b e g i ds m x n j, body_key k ->
  a <> "" -> fraction f b -> digits 0 (a +++ b) m -> e = "e" \/ e = "E" -> exponent_sign g i -> ds <> "" -> digits 0 ds x ->
  power_of_ten m (i * x - Z.of_nat (String.length b)) n j -> (n <= (2 ^ 63 - 1) * 10 ^ Z.of_nat j)%Z ->
  exists v, decode_map (doc_text [k +++ " = " +++ a +++ f +++ e +++ g +++ ds]) = Ok (NMap [(k, v)]) /\ literal_native (decimal n j) v.
Proof.
  intros k a f b e g i ds m x n j K A F D Ex G N Ds P L.
  assert (N0 : (0 <= n)%Z) by (apply (power_range _ _ _ _ P), (digits_range _ _ _ D); lia).
  rewrite (attr_document k (TDec n j) (a +++ f +++ e +++ g +++ ds) (EDec n j) K).
  - unfold decode_body, body_attrs, body_blocks. cbn [flat_map app attrs_native expr_native].
    destruct (decimal_total n j) as (v & E); [lia|]. rewrite E. exists v. split; [reflexivity|]. apply literal_sound. exact E.
  - exact (tx_exp a f b e g i ds m x n j A F D Ex G N Ds P).
  - intros r c r' X. injection X as <- _. apply memb_false. reflexivity.
  - constructor.
Qed.
