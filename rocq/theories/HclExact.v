(* The strings that come back from the text that the marshaller writes are those that need no
   escapes. *)

From Verif Require Import Base CtyModel CtySpec HclModel HclSpec HclParse HclDecode HclRound HclProofs HclGrammar HclLex.
From Coq Require Import Lia.

(* The characters of a string and what stands side by side in it. *)
Definition occurs (s : string) (c : ascii) : Prop := exists p q, s = p +++ String c q.
Definition side_by_side (s : string) (c d : ascii) : Prop := exists p q, s = p +++ String c (String d q).
(* Printable ASCII and newlines, without interpolations and repeated dollar and percent signs: for
   these the model of the scanner says what the library does. *)
Definition plain_source (s : string) : Prop :=
  (forall c, occurs s c -> char_in 32 126 c = true \/ c = "010"%char) /\
  (forall c d, side_by_side s c d -> mark_char c = true -> d <> "{"%char /\ mark_char d = false).

Lemma plain_quotable : forall s, plain_source s ->
  (quotable s <-> forall c, occurs s c -> c <> """"%char /\ c <> "\"%char /\ c <> "010"%char).
Proof.
  induction s as [|c s IH]; intros [A B].
  { split; [|constructor]. intros _ c (p & q & E). destruct p; discriminate. }
  assert (P : plain_source s).
  { split; [intros d (p & q & ->); apply A; exists (String c p), q; reflexivity|].
    intros d e (p & q & ->); apply B; exists (String c p), q; reflexivity. }
  specialize (IH P). cbn [quotable]. split.
  - intros (R & Nq & Nb & _ & Q) d (p & q & E). destruct p as [|x p]; cbn in E; injection E as <- E.
    + repeat split; try assumption. intros ->. discriminate.
    + apply (proj1 IH Q). exists p, q. exact E.
  - intros H. destruct (H c (ex_intro _ "" (ex_intro _ s eq_refl))) as (Nq & Nb & Nn).
    destruct (A c (ex_intro _ "" (ex_intro _ s eq_refl))) as [R|R]; [|destruct (Nn R)].
    repeat split; try assumption.
    + intros M. destruct s as [|d s]; [exact Logic.I|]. apply (B c d); [exists "", s; reflexivity|exact M].
    + apply IH. intros d (p & q & ->). apply H. exists (String c p), q. reflexivity.
Qed.

Definition good_after (q : string) : Prop :=
  match q with "" => True | String d _ => d <> "{"%char /\ mark_char d = false end.

Lemma scan_step : forall st c s ts, scan st (String c s) = Ok ts ->
  exists p ts', step st c = Ok p /\ scan (snd p) s = Ok ts' /\ ts = (fst p ++ ts')%list.
Proof.
  intros st c s ts H. cbn [scan] in H. apply bindr_Ok in H. destruct H as (p & P & H).
  apply bindr_Ok in H. destruct H as (ts' & T & H). exists p, ts'. repeat split; congruence.
Qed.

(* A literal is not longer than its source; if it is as long, the source needs no escapes. *)
Lemma literal_length : forall s acc ts,
  (scan (LStr acc) (s +++ quote +++ nl) = Ok ts ->
     exists a ts', ts = TStr a :: ts' /\ String.length a <= String.length acc + String.length s
       /\ (String.length a = String.length acc + String.length s -> quotable s)) /\
  (scan (LEsc acc) (s +++ quote +++ nl) = Ok ts ->
     exists a ts', ts = TStr a :: ts' /\ String.length a <= String.length acc + String.length s) /\
  (forall m, mark_char m = true -> scan (LMark m acc) (s +++ quote +++ nl) = Ok ts ->
     exists a ts', ts = TStr a :: ts' /\ String.length a <= S (String.length acc + String.length s)
       /\ (String.length a = S (String.length acc + String.length s) -> quotable s /\ good_after s)).
Proof.
  assert (L : forall (x : string) c, String.length (x +++ str1 c) = S (String.length x)).
  { intros x c. induction x; cbn in *; congruence. }
  induction s as [|c s IH]; intros acc ts.
  - split; [|split].
    + intros H. cbn [String.append] in H. unfold quote in H. cbn [String.append] in H.
      apply scan_step in H. destruct H as (p & ts' & P & H & ->). cbn in P. injection P as <-. cbn [fst snd] in *.
      exists acc, ts'. cbn. split; [reflexivity|]. split; [lia|trivial].
    + intros H. exfalso. cbn [String.append] in H. unfold quote in H. cbn [String.append] in H.
      apply scan_step in H. destruct H as (p & ts' & P & H & ->). cbn in P. injection P as <-. cbn [fst snd] in *.
      discriminate.
    + intros m M H. cbn [String.append] in H. unfold quote in H. cbn [String.append] in H.
      apply scan_step in H. destruct H as (p & ts' & P & H & ->). cbn in P. injection P as <-. cbn [fst snd] in *.
      exists (acc +++ str1 m), ts'. cbn [app]. split; [reflexivity|]. rewrite L. cbn. split; [lia|auto].
  - assert (Str : forall acc ts, (exists p ts', in_string acc c = Ok p /\ scan (snd p) (s +++ quote +++ nl) = Ok ts' /\ ts = (fst p ++ ts')%list) ->
      exists a ts', ts = TStr a :: ts' /\ String.length a <= String.length acc + String.length (String c s)
       /\ (String.length a = String.length acc + String.length (String c s) -> quotable (String c s))).
    { clear acc ts. intros acc ts (p & ts' & P & H & ->). unfold in_string in P. cbn [String.length].
      destruct (Ascii.eqb_spec c """") as [->|Nq].
      { injection P as <-. cbn [fst snd] in *. exists acc, ts'. split; [reflexivity|]. split; lia. }
      destruct (Ascii.eqb_spec c "\") as [->|Nb].
      { injection P as <-. cbn [fst snd] in *. destruct (IH acc ts') as (_ & IE & _). destruct (IE H) as (a & r & -> & Le).
        exists a, r. split; [reflexivity|]. split; lia. }
      destruct (mark_char c) eqn:M.
      { injection P as <-. cbn [fst snd] in *. destruct (IH acc ts') as (_ & _ & IM). destruct (IM c M H) as (a & r & -> & Le & Q).
        exists a, r. split; [reflexivity|]. split; [lia|]. intro E. destruct Q as [Q G]; [lia|]. cbn [quotable].
        split; [|split; [exact Nq|split; [exact Nb|split; [intros _; exact G|exact Q]]]].
        unfold mark_char in M. apply orb_prop in M. destruct M as [M|M]; apply Ascii.eqb_eq in M; subst c; reflexivity. }
      destruct (Ascii.eqb c "010") eqn:N; [discriminate|]. destruct (char_in 32 126 c) eqn:C; [|discriminate].
      injection P as <-. cbn [fst snd] in *. destruct (IH (acc +++ str1 c) ts') as (IS & _). destruct (IS H) as (a & r & -> & Le & Q).
      rewrite L in Le, Q. exists a, r. split; [reflexivity|]. split; [lia|]. intro E. cbn [quotable].
      split; [exact C|split; [exact Nq|split; [exact Nb|split; [congruence|apply Q; lia]]]]. }
    split; [|split].
    + intro H. apply Str. apply scan_step in H. exact H.
    + intro H. cbn [String.append] in H. apply scan_step in H. destruct H as (p & ts' & P & H & ->). cbn [step] in P.
      assert (X : exists d, p = ([], LStr (acc +++ str1 d))).
      { repeat match type of P with (if ?b then _ else _) = _ => destruct b end; try discriminate; injection P as <-; eexists; reflexivity. }
      destruct X as (d & ->). cbn [fst snd] in *. destruct (IH (acc +++ str1 d) ts') as (IS & _). destruct (IS H) as (a & r & -> & Le & _).
      rewrite L in Le. exists a, r. cbn [String.length]. split; [reflexivity|lia].
    + intros m M H. cbn [String.append] in H. apply scan_step in H. destruct H as (p & ts' & P & H & ->). cbn [step] in P.
      destruct (Ascii.eqb c "{") eqn:B; [discriminate|]. destruct (mark_char c) eqn:M'; [discriminate|].
      destruct (Str (acc +++ str1 m) (fst p ++ ts')%list) as (a & r & E & Le & Q); [eauto|]. rewrite L in Le, Q.
      exists a, r. split; [exact E|]. split; [exact Le|]. intro X. split; [apply Q; exact X|].
      cbn. split; [apply Ascii.eqb_neq; exact B|exact M'].
Qed.

(* The document for a string. *)
Definition string_doc (k s : string) : string := nl +++ "  " +++ k +++ " = " +++ quote +++ s +++ quote +++ nl.

Lemma marshal_string : forall k s, marshal (NMap [(k, NStr s)]) = Ok (Some (string_doc k s)).
Proof.
  intros k s. unfold string_doc. cbn. do 2 f_equal. unfold nl. cbn. rewrite !append_assoc. cbn. rewrite !append_assoc. reflexivity.
Qed.

Lemma word_ident : forall k, ident k -> word k.
Proof. intros [|c k] H; [contradiction|]. destruct H as [H1 H2]. exists c, k. split; [reflexivity|]. split; [apply memb_spec; rewrite <- start_word; exact H1|apply only_word; exact H2]. Qed.

Lemma first_string : forall k s its, ident k -> parse_config (string_doc k s) = Ok its ->
  exists a r, its = IAttr k (EStr a) :: r /\ String.length a <= String.length s /\ (String.length a = String.length s -> quotable s).
Proof.
  intros k s its K H. unfold parse_config in H. apply bindr_Ok in H. destruct H as (ts & T & H). apply bindr_Ok in H. destruct H as ((its', rest) & P & H).
  injection H as <-. cbn [fst] in *.
  assert (T' : exists a ts', ts = TNl :: TIdent k :: TEq :: TStr a :: ts' /\ String.length a <= String.length s /\ (String.length a = String.length s -> quotable s)).
  { unfold string_doc in T. rewrite (scan_token TNl nl) in T by (first [apply tx_sym; cbn; tauto|intros ? ? ?; exact Logic.I]).
    rewrite (scan_gap "  ") in T by (repeat apply gp_blank; [left; reflexivity|left; reflexivity|apply gp_none]).
    rewrite (scan_token (TIdent k) k) in T by (first [apply tx_word; apply word_ident; exact K|intros c r X; injection X as <- _; apply word_char_not; reflexivity]).
    change (" = " +++ ?x) with (" " +++ "=" +++ " " +++ x) in T. rewrite (scan_gap " ") in T by (apply gp_blank; [left; reflexivity|apply gp_none]).
    rewrite (scan_token TEq "=") in T by (first [apply tx_sym; cbn; tauto|intros c r X; injection X as <- _; discriminate]).
    rewrite (scan_gap " ") in T by (apply gp_blank; [left; reflexivity|apply gp_none]).
    unfold push in T. apply bindr_Ok in T. destruct T as (t1 & T & E). apply bindr_Ok in T. destruct T as (t2 & T & E2).
    apply bindr_Ok in T. destruct T as (t3 & T & E3). cbn [app] in *. subst.
    unfold quote at 1 in T. cbn [String.append] in T. apply scan_step in T. destruct T as (p & t4 & Q & T & ->).
    cbn in Q. injection Q as <-. cbn [fst snd app] in *. destruct (proj1 (literal_length s "" t4) T) as (a & r & -> & Le & Qu).
    exists a, r. injection E as <-. injection E2 as <-. injection E3 as <-. cbn in Le, Qu. auto. }
  destruct T' as (a & ts' & -> & Le & Qu).
  remember (2 * List.length (TNl :: TIdent k :: TEq :: TStr a :: ts') + 2) as n eqn:N. cbn [List.length] in N.
  destruct n as [|n]; [lia|]. cbn [pbody] in P. destruct n as [|n]; [lia|]. cbn [pbody] in P. destruct n as [|n]; [lia|]. cbn [pexpr bindr fst snd] in P.
  destruct ts' as [|[] ts']; try discriminate.
  - injection P as <- _. eauto.
  - apply bindr_Ok in P. destruct P as (q & P & H). destruct (in_dec _ _ _); [discriminate|]. injection H as <- _. eauto.
Qed.

Lemma not_object : forall k s, ident k -> ~ object_text (string_doc k s).
Proof.
  intros [|c k] s K (r & T & _); [destruct K|]. destruct K as [K _]. unfold string_doc, trim in T. cbn in T.
  assert (C : space_char c = false).
  { destruct c as [[][][][][][][][]]; try reflexivity; discriminate. }
  rewrite C in T. change (char_in 9 13 "010") with true in T. cbn iota in T. cbn [trim_right] in T.
  assert (X : c <> "{"%char) by (intros ->; discriminate).
  match type of T with context [trim_right ?x] => destruct (trim_right x) end; try rewrite C in T; unfold str1 in T; congruence.
Qed.

Theorem string_back : forall k s obj, ident k -> decode_map (string_doc k s) = Ok (NMap obj) ->
  lookup k obj = Some (NStr s) -> quotable s.
Proof.
  intros k s obj K D L. destruct (document_sound _ _ D) as [(its & P & B)|(O & _)]; [|destruct (not_object k s K O)].
  destruct (first_string k s its K P) as (a & r & -> & Le & Q).
  inversion B as [? ? _ _ _ V]; subst. specialize (V k _ L). cbn [named filter item_name] in V.
  unfold named in V. cbn [filter item_name] in V. destruct (string_dec k k) as [_|N]; [|destruct (N eq_refl)].
  apply Q. inversion V as [k0 e v X E0 E1|? b ? _ _ _ X| | |]; subst; [|inversion X].
  inversion X; subst. reflexivity.
Qed.
