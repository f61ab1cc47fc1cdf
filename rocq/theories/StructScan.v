(* The scanner with positions: the text between two tokens scans to the tokens between them. *)

From Verif Require Import Base CtyModel HclModel StructModel.
From Coq Require Import Lia.

Local Open Scope nat_scope.

Lemma step_pending : forall st c p, pending st = true -> step st c = Ok p ->
  (fst p = [] /\ pending (snd p) = true) \/
  (exists t p0, step0 c = Ok p0 /\ fst p = t :: fst p0 /\ snd p = snd p0 /\
     forall start pos (s' : string), pscan st start pos "" = Ok [(t, (start, pos))]
       /\ restart st start pos (fst p) = pos /\ step st c = Ok (t :: fst p0, snd p0)).
Proof.
  intros st c p P H. destruct st as [|acc|z|z|dm dk|dm dk|dm dk ng|dm dk ng x| | | | | | | |]; try discriminate; cbn [step] in H.
  - destruct (ident_char c) eqn:I; [injection H as <-; left; split; reflexivity|].
    right. unfold emit in H. destruct (step0 c) as [p0| |] eqn:S0; try discriminate.
    cbn [bindr] in H. injection H as <-. exists (TIdent acc), p0.
    repeat split; try reflexivity. cbn [step]. rewrite I. unfold emit. rewrite S0. reflexivity.
  - destruct (digit_char c) eqn:I; [injection H as <-; left; split; reflexivity|].
    destruct (Ascii.eqb c ".") eqn:D; [injection H as <-; left; split; reflexivity|].
    destruct (exp_char c) eqn:J; [injection H as <-; left; split; reflexivity|].
    right. unfold emit in H. destruct (step0 c) as [p0| |] eqn:S0; try discriminate.
    cbn [bindr] in H. injection H as <-. exists (TNum z), p0.
    repeat split; try reflexivity. cbn [step]. rewrite I, D, J. unfold emit. rewrite S0. reflexivity.
  - destruct (digit_char c) eqn:I; [injection H as <-; left; split; reflexivity|discriminate].
  - destruct (digit_char c) eqn:I; [injection H as <-; left; split; reflexivity|].
    destruct (exp_char c) eqn:J; [injection H as <-; left; split; reflexivity|].
    right. unfold emit in H. destruct (step0 c) as [p0| |] eqn:S0; try discriminate.
    cbn [bindr] in H. injection H as <-. exists (TDec dm dk), p0.
    repeat split; try reflexivity. cbn [step]. rewrite I, J. unfold emit. rewrite S0. reflexivity.
  - left. repeat match type of H with (if ?b then _ else _) = _ => destruct b end; try discriminate; injection H as <-; split; reflexivity.
  - destruct (digit_char c) eqn:I; [injection H as <-; left; split; reflexivity|discriminate].
  - destruct (digit_char c) eqn:I; [injection H as <-; left; split; reflexivity|].
    destruct (exp_char c) eqn:J; [discriminate|].
    right. unfold emit in H. destruct (step0 c) as [p0| |] eqn:S0; try discriminate.
    cbn [bindr] in H. injection H as <-. exists (with_exp dm dk ng x), p0.
    repeat split; try reflexivity. cbn [step]. rewrite I, J. unfold emit. rewrite S0. reflexivity.
  - destruct (Ascii.eqb c "=") eqn:I; [discriminate|].
    right. unfold emit in H. destruct (step0 c) as [p0| |] eqn:S0; try discriminate.
    cbn [bindr] in H. injection H as <-. exists TEq, p0.
    repeat split; try reflexivity. cbn [step]. rewrite I. unfold emit. rewrite S0. reflexivity.
Qed.

Lemma step0_cases : forall c p, step0 c = Ok p ->
  (fst p = []) \/ (exists t, fst p = [t] /\ snd p = LNone).
Proof.
  intros c p H. unfold step0 in H.
  repeat match type of H with
  | (if ?b then _ else _) = _ => destruct b
  end; try discriminate; injection H as <-; cbn [fst snd];
    first [left; reflexivity | right; eexists; split; reflexivity].
Qed.

Lemma step_text : forall st c p, in_text st = true -> step st c = Ok p ->
  (fst p = [] /\ (in_text (snd p) = true \/ snd p = LNone)) \/ (exists t, fst p = [t] /\ snd p = LNone).
Proof.
  assert (G : forall acc c p, in_string acc c = Ok p ->
    (fst p = [] /\ (in_text (snd p) = true \/ snd p = LNone)) \/ (exists t, fst p = [t] /\ snd p = LNone)).
  { intros acc c p H. unfold in_string in H.
    repeat match type of H with
    | (if ?b then _ else _) = _ => destruct b
    end; try discriminate; injection H as <-; cbn [fst snd];
      first [left; split; [reflexivity|left; reflexivity] | right; eexists; split; reflexivity]. }
  intros st c p P H. destruct st; try discriminate; cbn [step] in H.
  - eapply G. exact H.
  - repeat match type of H with
    | (if ?b then _ else _) = _ => destruct b
    end; try discriminate; injection H as <-; left; (split; [reflexivity|left; reflexivity]).
  - repeat match type of H with
    | (if ?b then _ else _) = _ => destruct b
    end; try discriminate. eapply G. exact H.
  - destruct (Ascii.eqb c "/"); [|destruct (Ascii.eqb c "*"); [|discriminate H]]; injection H as <-; left; (split; [reflexivity|left; reflexivity]).
  - destruct (Ascii.eqb c "010"); injection H as <-; [right; exists TNl; split; reflexivity|left; split; [reflexivity|left; reflexivity]].
  - destruct (Ascii.eqb c "*"); injection H as <-; left; (split; [reflexivity|left; reflexivity]).
  - destruct (Ascii.eqb c "/"); [|destruct (Ascii.eqb c "*")]; injection H as <-; left; (split; [reflexivity|first [left; reflexivity|right; reflexivity]]).
Qed.

Lemma state_cases : forall st, st = LNone \/ pending st = true \/ in_text st = true.
Proof. destruct st; auto. Qed.

Lemma pscan_start : forall s a b pos, pscan LNone a pos s = pscan LNone b pos s.
Proof. intros [|c s] a b pos; reflexivity. Qed.

(* A pending token that the next character ends. *)
Lemma pscan_pending : forall st c p start pos s t p0, pending st = true ->
  step st c = Ok p -> step0 c = Ok p0 -> fst p = t :: fst p0 -> snd p = snd p0 ->
  restart st start pos (fst p) = pos ->
  pscan st start pos (String c s)
  = do ts <- pscan LNone 0 pos (String c s); Ok ((t, (start, pos)) :: ts).
Proof.
  intros st c p start pos s t p0 P H S0 F N R. cbn [pscan]. rewrite H. cbn [bindr step].
  rewrite S0. cbn [bindr]. rewrite R, N, F. change (restart LNone 0 pos (fst p0)) with pos.
  destruct (pscan (snd p0) pos (S pos) s) as [ts| |]; [|reflexivity|reflexivity].
  cbn [bindr]. f_equal. unfold place at 1. rewrite P. cbn [app]. f_equal. f_equal.
  unfold place. cbn [pending in_text]. destruct (fst p0); reflexivity.
Qed.

Lemma place_none : forall start pos ts, place LNone start pos ts = map (fun t => (t, (pos, S pos))) ts.
Proof. intros start pos [|t ts]; reflexivity. Qed.

(* From the end of a token the scanner starts afresh. *)
Lemma pscan_suffix : forall s st start pos A x R,
  pscan st start pos s = Ok (A ++ x :: R) ->
  exists s1 s2, s = s1 +++ s2 /\ snd (snd x) = pos + String.length s1
    /\ pscan LNone 0 (snd (snd x)) s2 = Ok R.
Proof.
  assert (End : forall st start pos A x R, pscan st start pos "" = Ok (A ++ x :: R) ->
    A = [] /\ R = [] /\ snd (snd x) = pos).
  { intros st start pos A x R H.
    destruct st; cbn in H; try discriminate; injection H as H;
      destruct A as [|a [|? ?]]; try discriminate; injection H as <- <-; repeat split. }
  induction s as [|c s IH]; intros st start pos A x R H.
  - apply End in H as (-> & -> & E). exists "", "". rewrite E. repeat split. cbn. lia.
  - assert (N : forall start A x R, pscan LNone start pos (String c s) = Ok (A ++ x :: R) ->
      exists s1 s2, String c s = s1 +++ s2 /\ snd (snd x) = pos + String.length s1
        /\ pscan LNone 0 (snd (snd x)) s2 = Ok R).
    { clear A x R H. intros start0 A x R H. cbn [pscan step] in H.
      destruct (step0 c) as [p| |] eqn:S0; try discriminate. cbn [bindr] in H.
      rewrite place_none in H. change (restart LNone start0 pos (fst p)) with pos in H.
      destruct (pscan (snd p) pos (S pos) s) as [ts| |] eqn:T; try discriminate.
      cbn [bindr] in H. injection H as H.
      destruct (step0_cases c p S0) as [F|(t & F & N)]; rewrite F in H; cbn [map app] in H.
      - subst ts. destruct (IH _ _ _ _ _ _ T) as (s1 & s2 & -> & L & Q).
        exists (String c s1), s2. repeat split; [cbn; lia|exact Q].
      - destruct A as [|a A]; cbn [app] in H; injection H as <- H.
        + subst ts. exists (str1 c), s. repeat split; [cbn; lia|].
          cbn [snd]. rewrite N in T. rewrite (pscan_start s 0 pos). exact T.
        + subst ts. destruct (IH _ _ _ _ _ _ T) as (s1 & s2 & -> & L & Q).
          exists (String c s1), s2. repeat split; [cbn; lia|exact Q]. }
    destruct (state_cases st) as [->|[P|P]]; [exact (N _ _ _ _ H)| |].
    + cbn [pscan] in H. destruct (step st c) as [p| |] eqn:S1; try discriminate.
      destruct (step_pending st c p P S1) as [[F Q]|(t & p0 & S0 & F & Q & K)].
      * cbn [bindr] in H. rewrite F in H.
        destruct (pscan (snd p) _ (S pos) s) as [ts| |] eqn:T; try discriminate.
        cbn [bindr] in H. change (place st start pos []) with (@nil ptoken) in H. cbn [app] in H.
        injection H as ->. destruct (IH _ _ _ _ _ _ T) as (s1 & s2 & -> & L & Q2).
        exists (String c s1), s2. repeat split; [cbn; lia|exact Q2].
      * assert (H' : pscan st start pos (String c s) = Ok (A ++ x :: R)).
        { cbn [pscan]. rewrite S1. exact H. }
        rewrite (pscan_pending st c p start pos s t p0 P S1 S0 F Q (proj1 (proj2 (K start pos s)))) in H'.
        destruct (pscan LNone 0 pos (String c s)) as [ts| |] eqn:T; try discriminate.
        cbn [bindr] in H'. destruct A as [|a A]; cbn [app] in H'; injection H' as <- H'.
        -- subst ts. exists "", (String c s). repeat split; [cbn; lia|exact T].
        -- subst ts. exact (N _ _ _ _ T).
    + cbn [pscan] in H. destruct (step st c) as [p| |] eqn:S1; try discriminate. cbn [bindr] in H.
      destruct (pscan (snd p) _ (S pos) s) as [ts| |] eqn:T; try discriminate. cbn [bindr] in H.
      injection H as H.
      destruct (step_text st c p P S1) as [[F Q]|(t & F & Q)]; rewrite F in H, T.
      * change (place st start pos []) with (@nil ptoken) in H. cbn [app] in H. subst ts.
        destruct (IH _ _ _ _ _ _ T) as (s1 & s2 & -> & L & Q2).
        exists (String c s1), s2. repeat split; [cbn; lia|exact Q2].
      * rewrite Q in T. unfold place in H. rewrite P in H.
        replace (pending st) with false in H by (destruct st; try discriminate; reflexivity).
        cbn [map app] in H. destruct A as [|a A]; cbn [app] in H; injection H as <- H; subst ts.
        -- exists (str1 c), s. repeat split; [cbn; lia|]. cbn [snd].
           rewrite (pscan_start s 0 (restart st start pos [t])). exact T.
        -- destruct (IH _ _ _ _ _ _ T) as (s1 & s2 & -> & L & Q2).
           exists (String c s1), s2. repeat split; [cbn; lia|exact Q2].
Qed.

(* Cutting the text where a token starts leaves the tokens before it. *)
Lemma pscan_prefix : forall s st start pos M y B,
  pscan st start pos s = Ok (M ++ y :: B) ->
  (M = [] /\ st <> LNone /\ fst (snd y) = start) \/
  (exists s1 s2, s = s1 +++ s2 /\ fst (snd y) = pos + String.length s1
    /\ pscan st start pos s1 = Ok M).
Proof.
  induction s as [|c s IH]; intros st start pos M y B H.
  - left. destruct st; cbn in H; try discriminate; injection H as H;
      destruct M as [|? [|? ?]]; try discriminate; injection H as <- _; repeat split; discriminate.
  - assert (N : forall start M y B, pscan LNone start pos (String c s) = Ok (M ++ y :: B) ->
      exists s1 s2, String c s = s1 +++ s2 /\ fst (snd y) = pos + String.length s1
        /\ pscan LNone start pos s1 = Ok M).
    { clear M y B H. intros start0 M y B H. cbn [pscan step] in H.
      destruct (step0 c) as [p| |] eqn:S0; try discriminate. cbn [bindr] in H.
      rewrite place_none in H. change (restart LNone start0 pos (fst p)) with pos in H.
      destruct (pscan (snd p) pos (S pos) s) as [ts| |] eqn:T; try discriminate.
      cbn [bindr] in H. injection H as H.
      assert (Go : forall s1 M', pscan (snd p) pos (S pos) s1 = Ok M' ->
        pscan LNone start0 pos (String c s1) = Ok (map (fun t => (t, (pos, S pos))) (fst p) ++ M')).
      { intros s1 M' G. cbn [pscan step]. rewrite S0. cbn [bindr].
        change (restart LNone start0 pos (fst p)) with pos. rewrite G, place_none. reflexivity. }
      destruct (step0_cases c p S0) as [F|(t & F & N)]; rewrite F in H, Go; cbn [map app] in H, Go.
      - subst ts. destruct (IH _ _ _ _ _ _ T) as [(-> & Q & L)|(s1 & s2 & -> & L & Q)].
        + exists "", (String c s). repeat split. cbn. lia.
        + exists (String c s1), s2. repeat split; [cbn; lia|]. apply Go. exact Q.
      - destruct M as [|a M]; cbn [app] in H; injection H as <- H; subst ts.
        + exists "", (String c s). repeat split. cbn. lia.
        + destruct (IH _ _ _ _ _ _ T) as [(-> & Q & L)|(s1 & s2 & -> & L & Q)]; [congruence|].
          exists (String c s1), s2. repeat split; [cbn; lia|]. apply Go. exact Q. }
    destruct (state_cases st) as [->|[P|P]]; [right; exact (N _ _ _ _ H)| |].
    + cbn [pscan] in H. destruct (step st c) as [p| |] eqn:S1; try discriminate.
      destruct (step_pending st c p P S1) as [[F Q]|(t & p0 & S0 & F & Q & K)].
      * cbn [bindr] in H. rewrite F in H.
        destruct (pscan (snd p) _ (S pos) s) as [ts| |] eqn:T; try discriminate.
        cbn [bindr] in H. change (place st start pos []) with (@nil ptoken) in H. cbn [app] in H.
        injection H as ->.
        assert (R : restart st start pos [] = start) by (destruct st; try discriminate; reflexivity).
        rewrite R in T.
        destruct (IH _ _ _ _ _ _ T) as [(-> & Q2 & L)|(s1 & s2 & -> & L & Q2)].
        -- left. repeat split; [destruct st; discriminate|exact L].
        -- right. exists (String c s1), s2. repeat split; [cbn; lia|].
           cbn [pscan]. rewrite S1. cbn [bindr]. rewrite F, R, Q2. reflexivity.
      * assert (H' : pscan st start pos (String c s) = Ok (M ++ y :: B)).
        { cbn [pscan]. rewrite S1. exact H. }
        rewrite (pscan_pending st c p start pos s t p0 P S1 S0 F Q (proj1 (proj2 (K start pos s)))) in H'.
        destruct (pscan LNone 0 pos (String c s)) as [ts| |] eqn:T; try discriminate.
        cbn [bindr] in H'. destruct M as [|a M]; cbn [app] in H'; injection H' as <- H'.
        -- left. repeat split. destruct st; discriminate.
        -- subst ts. right. destruct (N _ _ _ _ T) as (s1 & s2 & E & L & Q2).
           exists s1, s2. split; [exact E|]. split; [exact L|].
           destruct s1 as [|c1 s1].
           ++ cbn in Q2. injection Q2 as <-. exact (proj1 (K start pos s)).
           ++ injection E as -> E.
              rewrite (pscan_pending st c1 p start pos s1 t p0 P S1 S0 F Q (proj1 (proj2 (K start pos s)))).
              rewrite Q2. reflexivity.
    + cbn [pscan] in H. destruct (step st c) as [p| |] eqn:S1; try discriminate. cbn [bindr] in H.
      destruct (pscan (snd p) _ (S pos) s) as [ts| |] eqn:T; try discriminate. cbn [bindr] in H.
      injection H as H.
      assert (Go : forall s1 M', pscan (snd p) (restart st start pos (fst p)) (S pos) s1 = Ok M' ->
        pscan st start pos (String c s1) = Ok (place st start pos (fst p) ++ M')).
      { intros s1 M' G. cbn [pscan]. rewrite S1. cbn [bindr]. rewrite G. reflexivity. }
      destruct (step_text st c p P S1) as [[F Q]|(t & F & Q)]; rewrite F in H, T, Go.
      * change (place st start pos []) with (@nil ptoken) in H, Go. cbn [app] in H, Go. subst ts.
        assert (R : restart st start pos [] = start) by (destruct st; try discriminate; reflexivity).
        rewrite R in T, Go.
        destruct (IH _ _ _ _ _ _ T) as [(-> & Q2 & L)|(s1 & s2 & -> & L & Q2)].
        -- left. repeat split; [destruct st; discriminate|exact L].
        -- right. exists (String c s1), s2. repeat split; [cbn; lia|]. apply Go. exact Q2.
      * rewrite Q in T, Go. unfold place in H, Go. rewrite P in H, Go.
        replace (pending st) with false in H, Go by (destruct st; try discriminate; reflexivity).
        cbn [map app] in H, Go. destruct M as [|a M]; cbn [app] in H; injection H as <- H; subst ts.
        -- left. repeat split. destruct st; discriminate.
        -- right. destruct (IH _ _ _ _ _ _ T) as [(-> & Q2 & L)|(s1 & s2 & -> & L & Q2)]; [congruence|].
           exists (String c s1), s2. repeat split; [cbn; lia|]. apply Go. exact Q2.
Qed.

(* Cutting the text where a token ends leaves the tokens up to it. *)
Lemma pscan_prefix_end : forall s st start pos M z R,
  pscan st start pos s = Ok (M ++ z :: R) ->
  exists s1 s2, s = s1 +++ s2 /\ snd (snd z) = pos + String.length s1
    /\ pscan st start pos s1 = Ok (M ++ [z]).
Proof.
  induction s as [|c s IH]; intros st start pos M z R H.
  - exists "", "". split; [reflexivity|].
    destruct st; cbn in H; try discriminate; injection H as H;
      destruct M as [|? [|? ?]]; try discriminate; injection H as <- <-; split; try reflexivity; cbn; lia.
  - assert (N : forall start M z R, pscan LNone start pos (String c s) = Ok (M ++ z :: R) ->
      exists s1 s2, String c s = s1 +++ s2 /\ snd (snd z) = pos + String.length s1
        /\ pscan LNone start pos s1 = Ok (M ++ [z])).
    { clear M z R H. intros start0 M z R H. cbn [pscan step] in H.
      destruct (step0 c) as [p| |] eqn:S0; try discriminate. cbn [bindr] in H.
      rewrite place_none in H. change (restart LNone start0 pos (fst p)) with pos in H.
      destruct (pscan (snd p) pos (S pos) s) as [ts| |] eqn:T; try discriminate.
      cbn [bindr] in H. injection H as H.
      assert (Go : forall s1 M', pscan (snd p) pos (S pos) s1 = Ok M' ->
        pscan LNone start0 pos (String c s1) = Ok (map (fun t => (t, (pos, S pos))) (fst p) ++ M')).
      { intros s1 M' G. cbn [pscan step]. rewrite S0. cbn [bindr].
        change (restart LNone start0 pos (fst p)) with pos. rewrite G, place_none. reflexivity. }
      destruct (step0_cases c p S0) as [F|(t & F & N)]; rewrite F in H, Go; cbn [map app] in H, Go.
      - subst ts. destruct (IH _ _ _ _ _ _ T) as (s1 & s2 & -> & L & Q).
        exists (String c s1), s2. repeat split; [cbn; lia|]. apply Go. exact Q.
      - destruct M as [|a M]; cbn [app] in H; injection H as <- H; subst ts.
        + exists (str1 c), s. repeat split; [cbn; lia|]. apply (Go "" []). rewrite N. reflexivity.
        + destruct (IH _ _ _ _ _ _ T) as (s1 & s2 & -> & L & Q).
          exists (String c s1), s2. repeat split; [cbn; lia|]. apply Go. exact Q. }
    destruct (state_cases st) as [->|[P|P]]; [exact (N _ _ _ _ H)| |].
    + cbn [pscan] in H. destruct (step st c) as [p| |] eqn:S1; try discriminate.
      destruct (step_pending st c p P S1) as [[F Q]|(t & p0 & S0 & F & Q & K)].
      * cbn [bindr] in H. rewrite F in H.
        destruct (pscan (snd p) _ (S pos) s) as [ts| |] eqn:T; try discriminate.
        cbn [bindr] in H. change (place st start pos []) with (@nil ptoken) in H. cbn [app] in H.
        injection H as ->.
        destruct (IH _ _ _ _ _ _ T) as (s1 & s2 & -> & L & Q2).
        exists (String c s1), s2. repeat split; [cbn; lia|].
        cbn [pscan]. rewrite S1. cbn [bindr]. rewrite F, Q2. reflexivity.
      * assert (H' : pscan st start pos (String c s) = Ok (M ++ z :: R)).
        { cbn [pscan]. rewrite S1. exact H. }
        rewrite (pscan_pending st c p start pos s t p0 P S1 S0 F Q (proj1 (proj2 (K start pos s)))) in H'.
        destruct (pscan LNone 0 pos (String c s)) as [ts| |] eqn:T; try discriminate.
        cbn [bindr] in H'. destruct M as [|a M]; cbn [app] in H'; injection H' as <- H'.
        -- exists "", (String c s). repeat split; [cbn; lia|]. exact (proj1 (K start pos s)).
        -- subst ts. destruct (N _ _ _ _ T) as (s1 & s2 & E & L & Q2).
           exists s1, s2. split; [exact E|]. split; [exact L|].
           destruct s1 as [|c1 s1].
           ++ cbn in Q2. injection Q2 as Q2. destruct M; discriminate.
           ++ injection E as -> E.
              rewrite (pscan_pending st c1 p start pos s1 t p0 P S1 S0 F Q (proj1 (proj2 (K start pos s)))).
              rewrite Q2. reflexivity.
    + cbn [pscan] in H. destruct (step st c) as [p| |] eqn:S1; try discriminate. cbn [bindr] in H.
      destruct (pscan (snd p) _ (S pos) s) as [ts| |] eqn:T; try discriminate. cbn [bindr] in H.
      injection H as H.
      assert (Go : forall s1 M', pscan (snd p) (restart st start pos (fst p)) (S pos) s1 = Ok M' ->
        pscan st start pos (String c s1) = Ok (place st start pos (fst p) ++ M')).
      { intros s1 M' G. cbn [pscan]. rewrite S1. cbn [bindr]. rewrite G. reflexivity. }
      destruct (step_text st c p P S1) as [[F Q]|(t & F & Q)]; rewrite F in H, T, Go.
      * change (place st start pos []) with (@nil ptoken) in H, Go. cbn [app] in H, Go. subst ts.
        destruct (IH _ _ _ _ _ _ T) as (s1 & s2 & -> & L & Q2).
        exists (String c s1), s2. repeat split; [cbn; lia|]. apply Go. exact Q2.
      * rewrite Q in T, Go. unfold place in H, Go. rewrite P in H, Go.
        replace (pending st) with false in H, Go by (destruct st; try discriminate; reflexivity).
        cbn [map app] in H, Go. destruct M as [|a M]; cbn [app] in H; injection H as <- H; subst ts.
        -- exists (str1 c), s. repeat split; [cbn; lia|]. apply (Go "" []). reflexivity.
        -- destruct (IH _ _ _ _ _ _ T) as (s1 & s2 & -> & L & Q2).
           exists (String c s1), s2. repeat split; [cbn; lia|]. apply Go. exact Q2.
Qed.

(* Without the positions it is the scanner of HclModel.v. *)
Lemma pscan_scan : forall s st start pos,
  scan st s = do ts <- pscan st start pos s; Ok (map tok_of ts).
Proof.
  induction s as [|c s IH]; intros st start pos.
  - destruct st; reflexivity.
  - cbn [scan pscan]. destruct (step st c) as [p| |]; [|reflexivity|reflexivity]. cbn [bindr].
    rewrite (IH (snd p) (restart st start pos (fst p)) (S pos)).
    destruct (pscan (snd p) _ (S pos) s) as [ts| |]; [|reflexivity|reflexivity].
    cbn [bindr]. rewrite map_app. f_equal. f_equal.
    unfold place. destruct (fst p) as [|t r]; [reflexivity|].
    destruct (pending st); [|destruct (in_text st)];
      cbn [map tok_of fst]; rewrite map_map; cbn [tok_of fst]; rewrite map_id; reflexivity.
Qed.

Lemma substring_app : forall a b c, substring (String.length a) (String.length b) (a +++ b +++ c) = b.
Proof.
  induction a as [|x a IH]; intros b c; cbn.
  - induction b as [|y b IHb]; cbn; [destruct c; reflexivity|]. rewrite IHb. reflexivity.
  - apply IH.
Qed.
Lemma slice_app : forall a b c x y, x = String.length a -> y = x + String.length b ->
  slice (a +++ b +++ c) x y = b.
Proof.
  intros a b c x y -> ->. unfold slice.
  replace (String.length a + String.length b - String.length a) with (String.length b) by lia.
  apply substring_app.
Qed.

Lemma text_between : forall s A x M y B, pscan LNone 0 0 s = Ok (A ++ x :: M ++ y :: B) ->
  scan LNone (slice s (snd (snd x)) (fst (snd y))) = Ok (map tok_of M).
Proof.
  intros s A x M y B H. apply pscan_suffix in H as (s1 & s2 & -> & L & H).
  apply pscan_prefix in H as [(_ & F & _)|(s3 & s4 & -> & L2 & H)]; [congruence|].
  cbn in L. rewrite slice_app by lia. rewrite (pscan_scan _ _ 0 (snd (snd x))), H. reflexivity.
Qed.

Lemma text_upto : forall s A x M z R, pscan LNone 0 0 s = Ok (A ++ x :: M ++ z :: R) ->
  scan LNone (slice s (snd (snd x)) (snd (snd z))) = Ok (map tok_of (M ++ [z])).
Proof.
  intros s A x M z R H. apply pscan_suffix in H as (s1 & s2 & -> & L & H).
  apply pscan_prefix_end in H as (s3 & s4 & -> & L2 & H).
  cbn in L. rewrite slice_app by lia. rewrite (pscan_scan _ _ 0 (snd (snd x))), H. reflexivity.
Qed.
