(* The lines of a struct, assembled and parsed. *)

From Verif Require Import Base GoType DetModel CtyModel CtySpec HclModel HclSpec HclParse PlainScan HclScan HclRound
  TagModel TagSpec TagProofs StructModel StructSpec StructFields MarshalModel MarshalSpec MarshalText.
From Coq Require Import Lia.
Local Open Scope nat_scope.

(* ----- lines ----- *)

(* The line reads as the item i. *)
Definition line_ok (line : string) (i : item) : Prop :=
  solid line /\ exists ts, scans line ts /\ itoks i ts.

Lemma line_item_ok : forall line i, line_item line i -> solid line -> line_ok line i.
Proof. intros line i (r & ts & _ & _ & H1 & H2 & _) Hs. split; [exact Hs|]. exists ts. auto. Qed.

Lemma lines_toks : forall arr its, Forall2 line_ok arr its ->
  exists tss, Forall2 scans arr tss /\ Forall2 itoks its tss.
Proof.
  intros arr its F. induction F as [|line i arr its (_ & ts & H1 & H2) F (tss & F1 & F2)].
  - exists []. split; constructor.
  - exists (ts :: tss). split; constructor; assumption.
Qed.

Definition labels_text (ls : list string) : string :=
  match ls with [] => "" | _ => quote +++ join (quote +++ " " +++ quote) ls +++ quote +++ " " end.

Lemma scans_labels : forall ls, Forall quotable ls -> scans0 (labels_text ls) (map TStr ls).
Proof.
  intros ls F.
  assert (G : forall l ls, Forall quotable (l :: ls) ->
    scans0 (quote +++ join (quote +++ " " +++ quote) (l :: ls) +++ quote) (map TStr (l :: ls))).
  { clear. intros l ls. revert l. induction ls as [|l2 ls IH]; intros l F; inversion F; subst.
    - cbn [join map]. apply scans0_quoted. assumption.
    - change (join (quote +++ " " +++ quote) (l :: l2 :: ls))
        with (l +++ (quote +++ " " +++ quote) +++ join (quote +++ " " +++ quote) (l2 :: ls)).
      replace (quote +++ (l +++ (quote +++ " " +++ quote) +++ join (quote +++ " " +++ quote) (l2 :: ls)) +++ quote)
        with ((quote +++ l +++ quote) +++ " " +++ (quote +++ join (quote +++ " " +++ quote) (l2 :: ls) +++ quote))
        by (rewrite !append_assoc; reflexivity).
      apply (scans0_app _ _ [TStr l]); [apply scans0_quoted; assumption|].
      apply (scans0_app " " _ []); [exact scans0_space|]. apply IH. assumption. }
  destruct ls as [|l ls]; [exact scans0_nil|]. unfold labels_text.
  rewrite <- (append_assoc _ quote " "), <- append_assoc.
  assert (X := scans0_app _ " " (map TStr (l :: ls)) [] (G l ls F) scans0_space). rewrite app_nil_r in X. exact X.
Qed.

(* ----- the assembled text ----- *)

Definition body_of (level : nat) (arr : list string) : string :=
  match arr with [] => "" | _ => lead (S level) +++ join (nl +++ lead (S level)) arr end.
Definition final (level : nat) (labels arr : list string) : string :=
  if Nat.eqb level 0 then body_of level arr
  else labels_text labels +++ "{" +++ nl +++ body_of level arr +++ nl +++ lead level +++ "}".

Lemma join_cons : forall sep a l, l <> [] -> join sep (a :: l) = a +++ sep +++ join sep l.
Proof. intros sep a [|b l] H; [congruence|reflexivity]. Qed.

Lemma lines_join : forall x ls outs, outs <> [] ->
  fold_right (fun l r => l +++ nl +++ x +++ r) "" ls +++ join (nl +++ x) outs = join (nl +++ x) (ls ++ outs).
Proof.
  intros x ls outs N. induction ls as [|l ls IH]; [reflexivity|]. cbn [fold_right app].
  rewrite !append_assoc, IH, join_cons; [rewrite !append_assoc; reflexivity|].
  destruct ls; [exact N|discriminate].
Qed.
Lemma lines_join0 : forall x ls, ls <> [] ->
  fold_right (fun l r => l +++ nl +++ x +++ r) "" ls = join (nl +++ x) ls +++ nl +++ x.
Proof.
  intros x ls. induction ls as [|l ls IH]; intros N; [congruence|]. cbn [fold_right].
  destruct ls as [|l2 ls].
  - cbn [fold_right join]. rewrite !append_nil_r. reflexivity.
  - rewrite IH by discriminate. rewrite (join_cons _ l) by discriminate. rewrite !append_assoc. reflexivity.
Qed.
Lemma join_solid : forall sep l, l <> [] -> Forall solid l -> solid (join sep l).
Proof.
  intros sep l N F. induction F as [|a l H F IH]; [congruence|]. destruct l as [|b l]; [exact H|].
  rewrite join_cons by discriminate. do 2 apply solid_app. apply IH. discriminate.
Qed.

Lemma trim_body : forall level ls outs, Forall solid (ls ++ outs) ->
  trim_ws (lead (S level) +++ fold_right (fun l r => l +++ nl +++ lead (S level) +++ r) "" ls
           +++ join (nl +++ lead (S level)) outs) = body_of level (ls ++ outs).
Proof.
  intros level ls outs F. destruct outs as [|o outs].
  - rewrite app_nil_r in *. cbn [join]. rewrite append_nil_r. destruct ls as [|l ls].
    + cbn [fold_right]. rewrite append_nil_r. apply trim_lead.
    + rewrite lines_join0 by discriminate. rewrite <- append_assoc, trim_ws_app.
      * apply trim_ws_solid, solid_app. apply join_solid; [discriminate|exact F].
      * change (all_chars ws_char (nl +++ lead (S level)) = true). rewrite all_chars_app.
        rewrite lead_ws. reflexivity.
  - rewrite lines_join by discriminate. rewrite trim_ws_solid.
    + destruct (ls ++ o :: outs)%list eqn:X; [destruct ls; discriminate|reflexivity].
    + apply solid_app. apply join_solid; [destruct ls; discriminate|exact F].
Qed.

(* The text of a block after its name. *)
Definition block_reads (text : string) (labels : list string) (its : list item) : Prop :=
  solid text /\ exists ts, scans0 text (map TStr labels ++ TLBrace :: TNl :: ts) /\ btoks true its (TNl :: ts).

Lemma final_reads : forall level labels arr its, Forall quotable labels -> Forall2 line_ok arr its ->
  NoDup (attr_names its) -> block_reads (final (S level) labels arr) labels its.
Proof.
  intros level labels arr its Q F N. unfold final. cbn [Nat.eqb].
  assert (B : exists ts, scans0 ("{" +++ nl +++ body_of (S level) arr +++ nl +++ lead (S level) +++ "}") (TLBrace :: TNl :: ts)
              /\ btoks true its (TNl :: ts)).
  { destruct (lines_toks arr its F) as (tss & F1 & F2). destruct arr as [|t arr].
    - inversion F; subst. exists [TNl; TRBrace]. split; [|do 2 constructor; exact (bt_end true)]. cbn [body_of].
      apply (scans0_app "{" _ [TLBrace]); [exact scans0_lbrace|].
      apply (scans0_app nl _ [TNl]); [exact scans0_nl|].
      apply (scans0_app nl _ [TNl]); [exact scans0_nl|].
      apply (scans0_app (lead (S level)) _ [] [TRBrace]); [apply scans0_lead|exact scans0_rbrace].
    - eexists. split; [exact (scans_block (S level) (t :: arr) tss F1)|]. constructor.
      exact (btoks_items true its tss F2 N). }
  destruct B as (ts & B1 & B2). split.
  - do 6 apply solid_app. exists "", "}"%char. split; reflexivity.
  - exists ts. split; [|exact B2]. apply scans0_app; [apply scans_labels; exact Q|exact B1].
Qed.

(* A line with a block. *)
Lemma block_line : forall name key labels text its, ident name -> Forall quotable key -> block_reads text labels its ->
  line_ok (out_line (MO name key text false)) (IBlock name (key ++ labels) its).
Proof.
  intros name key labels text its I Q (So & ts & Sc & B). 
  assert (O : out_line (MO name key text false) = name +++ " " +++ labels_text key +++ text)
    by (destruct key; reflexivity).
  rewrite O.
  split; [do 3 apply solid_app; exact So|].
  exists (TIdent name :: map TStr (key ++ labels) ++ TLBrace :: TNl :: ts)%list. split; [|constructor; exact B].
  assert (A : (map TStr (key ++ labels) ++ TLBrace :: TNl :: ts = map TStr key ++ map TStr labels ++ TLBrace :: TNl :: ts)%list)
    by (rewrite map_app, <- app_assoc; reflexivity).
  rewrite A.
  apply scans0_scans. apply (scans_app0 name _ [TIdent name]); [apply scans_ident; exact I|left; reflexivity|].
  apply (scans0_app " " _ []); [exact scans0_space|].
  apply scans0_app; [apply scans_labels; exact Q|exact Sc].
Qed.

(* ----- the document ----- *)

Lemma scan_eof : forall t st us, scan st (t +++ nl) = Ok us -> exists us', scan st t = Ok us' /\ us = (us' ++ [TNl])%list.
Proof.
  induction t as [|c t IH]; intros st us H.
  - cbn [String.append] in H. unfold nl in H. rewrite scan_cons in H.
    destruct st; cbn in H; try discriminate; injection H as <-; eexists; split; reflexivity.
  - cbn [String.append] in H. rewrite scan_cons in H. apply bindr_Ok in H. destruct H as (p & Hp & H).
    apply bindr_Ok in H. destruct H as (ts & Hts & H). injection H as <-.
    destruct (IH _ _ Hts) as (us' & E & ->). exists (fst p ++ us')%list. cbn [scan]. rewrite Hp. cbn [bindr].
    rewrite E. cbn [bindr]. split; [reflexivity|]. rewrite app_assoc. reflexivity.
Qed.

Fixpoint joint (tss : list (list token)) : list token :=
  match tss with
  | [] => []
  | [ts] => ts
  | ts :: r => (ts ++ TNl :: joint r)%list
  end.
Lemma joint_ended : forall tss, tss <> [] -> flat_map ended tss = (joint tss ++ [TNl])%list.
Proof.
  induction tss as [|ts tss IH]; intros N; [congruence|]. cbn [flat_map]. destruct tss as [|t2 tss].
  - cbn. rewrite app_nil_r. reflexivity.
  - rewrite IH by discriminate. unfold ended. change (joint (ts :: t2 :: tss)) with (ts ++ TNl :: joint (t2 :: tss))%list.
    rewrite <- !app_assoc. reflexivity.
Qed.

Lemma parse_last : forall i ts n, itoks i ts -> 2 * List.length ts + 2 <= n -> pbody n false ts = Ok ([i], []).
Proof.
  intros i ts n H L. destruct n as [|n]; [lia|]. destruct H as [k e ts He|k ls b ts Hb].
  - cbn [List.length] in L. cbn [pbody]. assert (P := proj1 parse_toks e ts He [] n I ltac:(lia)).
    rewrite app_nil_r in P. rewrite P. reflexivity.
  - cbn [List.length] in L. rewrite app_length in L. cbn [List.length] in L.
    assert (P := proj1 parse_body true b _ Hb [] n ltac:(discriminate) ltac:(cbn [List.length]; lia)).
    rewrite app_nil_r in P. cbn [pbody].
    assert (Pl := plabels_strings ls (TNl :: ts)).
    assert (Q : match (map TStr ls ++ TLBrace :: TNl :: ts)%list with TEq :: _ => False | _ => True end).
    { destruct ls; exact I. }
    destruct (map TStr ls ++ TLBrace :: TNl :: ts)%list as [|[] x]; try contradiction;
      rewrite Pl; cbn [bindr snd fst block_body]; rewrite P; reflexivity.
Qed.

Lemma parse_joint : forall its tss, Forall2 itoks its tss -> its <> [] -> NoDup (attr_names its) ->
  forall n, 2 * List.length (joint tss) + 2 <= n -> pbody n false (joint tss) = Ok (its, []).
Proof.
  intros its tss F. induction F as [|i ts its tss H F IH]; intros Ne N n L; [congruence|].
  destruct tss as [|t2 tss].
  - inversion F; subst. apply parse_last; assumption.
  - change (joint (ts :: t2 :: tss)) with (ts ++ TNl :: joint (t2 :: tss))%list in *.
    rewrite app_length in L. cbn [List.length] in L.
    apply (proj2 parse_body i ts H) with (bound := 2 * List.length (joint (t2 :: tss)) + 2).
    + intros k I X. destruct i; cbn in I; [|contradiction]. destruct I as [<-|[]]. cbn in N. inversion N; contradiction.
    + intros n' L'. apply IH; [intros ->; inversion F| |exact L'].
      destruct i; cbn in N; [inversion N; assumption|exact N].
    + lia.
Qed.

Lemma document_parses : forall arr its, Forall2 line_ok arr its -> NoDup (attr_names its) ->
  parse_config (body_of 0 arr) = Ok its /\ exists ts, scan LNone (body_of 0 arr) = Ok ts.
Proof.
  intros arr its F N. destruct (lines_toks arr its F) as (tss & F1 & F2). destruct arr as [|t arr].
  - inversion F; subst. split; [reflexivity|eexists; reflexivity].
  - assert (Ne : tss <> []) by (intros ->; inversion F1).
    assert (Sc : scan LNone (body_of 0 (t :: arr) +++ nl) = Ok (flat_map ended tss)).
    { assert (X : scans0 (body_of 0 (t :: arr) +++ nl) (flat_map ended tss)).
      { unfold body_of. rewrite append_assoc. apply (scans0_app (lead 1) _ []); [apply scans0_lead|].
        apply scans_lines; [exact F1|discriminate]. }
      specialize (X ""). rewrite append_nil_r in X. rewrite X. cbn [scan push bindr]. rewrite app_nil_r. reflexivity. }
    apply scan_eof in Sc. destruct Sc as (us & Eu & X). rewrite joint_ended in X by exact Ne.
    apply app_inj_tail in X. destruct X as [<- _]. split; [|eexists; exact Eu]. unfold parse_config. rewrite (plain_scan _ _ _ Eu). cbn [bindr].
    rewrite (parse_joint its tss F2); [reflexivity| |exact N|lia]. intros ->. inversion F.
Qed.
