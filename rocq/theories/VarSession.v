(* Proofs for VarModel.v: several documents with one reference map. *)

From Verif Require Import Base CtyModel HclModel TreeModel TreeSpec TreeProofs VarModel VarSpec VarTree VarProofs VarGroup VarBody VarStruct.

(* Each block is picked at most once, so what is picked is determined. *)
Lemma picked_same : forall norm to_text binary fs again pick,
  (forall g at_ P b s, values norm to_text binary fs again g at_ P b s ->
     forall s1 s2, picked pick at_ s s1 -> picked pick at_ s s2 -> s1 = s2) /\
  (forall g at_ P i bs ss, all_values norm to_text binary fs again g at_ P i bs ss ->
     (forall j s, In (j, s) ss -> i <= j) /\ NoDup (map fst ss) /\
     forall j s, In (j, s) ss -> forall s1 s2, picked pick (at_ ++ [j]) s s1 -> picked pick (at_ ++ [j]) s s2 -> s1 = s2).
Proof.
  intros norm to_text binary fs again pick. apply (values_all_ind norm to_text binary fs again).
  - intros g at_ P attrs bs vs g' ss _ _ _ _ [_ [Hn IH]] s1 s2 H1 H2.
    inversion H1 as [? ? ? ts1 A1]; subst. inversion H2 as [? ? ? ts2 A2]; subst. f_equal.
    clear H1 H2. revert ts1 ts2 A1 A2. induction (pick at_) as [|i is IHis]; intros ts1 ts2 A1 A2.
    { inversion A1; inversion A2; subst. reflexivity. }
    inversion A1; subst; inversion A2; subst.
    + apply IHis; assumption.
    + exfalso. match goal with H : forall s, ~ In (i, s) ss, K : In (i, ?s) ss |- _ => exact (H s K) end.
    + exfalso. match goal with H : forall s, ~ In (i, s) ss, K : In (i, ?s) ss |- _ => exact (H s K) end.
    + match goal with H : In (i, ?s) ss, K : In (i, ?s') ss |- _ => assert (E : s = s') end.
      { match goal with H : In (i, ?s) ss, K : In (i, ?s') ss |- _ =>
          apply (In_lookup _ _ _ Hn) in H; apply (In_lookup _ _ _ Hn) in K; congruence end. }
      subst. f_equal; [f_equal; eapply IH; eauto|apply IHis; assumption].
  - intros g at_ P i. split; [intros j s []|]. split; [constructor|intros j s []].
  - intros g at_ P i t ls b bs s ss _ _ Hb _ [Hle [Hn IH]]. split; [|split].
    + intros j s' [E|Hin]; [inversion E; lia|]. specialize (Hle j s' Hin). lia.
    + simpl. constructor; [|exact Hn]. intros Hin. apply in_map_iff in Hin. destruct Hin as [[j s'] [E Hin]].
      simpl in E. subst j. specialize (Hle i s' Hin). lia.
    + intros j s' [E|Hin]; [inversion E; subst; exact Hb|apply (IH j s' Hin)].
Qed.

Theorem calls_answer : forall norm to_text binary fs given calls xs,
  NoDup (map fst given) -> well_named (call_value_at given calls) (call_body_at calls) ->
  Forall2 (answers norm to_text binary fs given) calls xs ->
  exists h', run_calls norm to_text binary (Some 0) fs calls (given_tree given) 0 = Ok (h', xs).
Proof.
  intros norm to_text binary fs given calls xs Hn [Hw1 [Hw2 Hw3]] Hall.
  set (A := call_value_at given calls) in *. set (ok := fun q (k : string) => q = 0 /\ In k (map fst given)).
  assert (Hgo : forall l ys, Forall2 (answers norm to_text binary fs given) l ys -> incl l calls ->
    forall h, good A h 0 -> sees ok h 0 (given_env given) ->
    exists h', run_calls norm to_text binary (Some 0) fs l h 0 = Ok (h', ys)).
  { clear Hall xs. intros l ys H. induction H as [|c a l ys Hc H IH]; intros Hin h G Hs.
    - exists h. reflexivity.
    - cbn [run_calls].
      assert (Hcin : In c calls) by (apply Hin; left; reflexivity).
      assert (Hone : exists h1, run_call norm to_text binary (Some 0) fs c h 0 = Ok (h1, a) /\ good A h1 0 /\ grows ok h h1).
      { destruct Hc as [ord b x Hord Hd Hb|sord again pick b s s' Hord Hd Hb Hp].
        - destruct (proj1 (body_all norm to_text binary fs 0 A ord Hord Hw2) _ _ _ _ Hb h 0 ok G eq_refl Hs)
            as [h1 [E [G1 R1]]].
          + split.
            * intros R c n e Q k Hi Hin' He. right. exists (CallMap ord b). split; [exact Hcin|]. right. exists R, c, n, e. auto.
            * intros R c Hi. assert (HB : call_body_at calls R) by (exists (CallMap ord b); split; [exact Hcin|exists c; exact Hi]).
              split; [|apply Hw3; exact HB]. intros Q k rest HA. apply (Hw1 Q k R rest HA HB).
          + intros q k [-> Hk]. right. split; [reflexivity|apply Hd; exact Hk].
          + exists h1. unfold run_call. rewrite E. cbn [bindr fst snd]. split; [reflexivity|]. split; [exact G1|].
            eapply grows_weaken; [|exact R1]. intros q k [-> Hk]. right. split; [reflexivity|apply Hd; exact Hk].
        - destruct (proj1 (struct_all norm to_text binary fs 0 A sord Hord again pick Hw2) _ _ _ _ _ Hb h 0 ok G eq_refl Hs)
            as [h1 [s1 [E [Hp1 [G1 R1]]]]].
          + split.
            * intros at' R c n e Hi Hin'. split.
              -- right. exists (CallStruct sord again pick b). split; [exact Hcin|]. right. exists at', R, c, n, e. auto.
              -- intros Hna Q k Hk. right. exists (CallStruct sord again pick b). split; [exact Hcin|].
                 right. exists at', R, c, n, e. auto.
            * intros at' R c Hi. assert (HB : call_body_at calls R).
              { exists (CallStruct sord again pick b). split; [exact Hcin|]. exists at', c. exact Hi. }
              split; [|apply Hw3; exact HB]. intros Q k rest HA. apply (Hw1 Q k R rest HA HB).
          + intros q k [-> Hk]. right. split; [reflexivity|apply Hd; exact Hk].
          + exists h1. unfold run_call. rewrite E. cbn [bindr fst snd].
            rewrite (proj1 (picked_same norm to_text binary fs again pick) _ _ _ _ _ Hb s' s1 Hp Hp1).
            split; [reflexivity|]. split; [exact G1|].
            eapply grows_weaken; [|exact R1]. intros q k [-> Hk]. right. split; [reflexivity|apply Hd; exact Hk]. }
      destruct Hone as [h1 [E [G1 R1]]]. rewrite E. cbn [bindr fst snd].
      destruct (IH) with (h := h1) as [h2 E2].
      + intros c' Hc'. apply Hin. right. exact Hc'.
      + exact G1.
      + eapply sees_grows; eauto.
      + rewrite E2. exists h2. reflexivity. }
  apply (Hgo calls xs Hall (incl_refl _)).
  - apply given_good; [exact Hn|]. intros k Hk. left. auto.
  - apply given_sees; [exact Hn|]. intros k Hk. split; [split; [reflexivity|exact Hk]|]. apply (Hw2 [] k). left. auto.
Qed.
