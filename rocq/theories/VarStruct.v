(* Proofs for VarModel.v: decoding a body into structs evaluates what VarSpec.v says; and the
   two results for a whole document. *)

From Verif Require Import Base CtyModel HclModel TreeModel TreeSpec TreeProofs VarModel VarSpec VarTree VarProofs VarGroup VarBody.

Section S.
Variable norm : string -> string.
Variable to_text : CtyModel.cval -> result string.
Variable binary : string -> CtyModel.cval -> CtyModel.cval -> result CtyModel.cval.
Variable fs : funcs.
Variable r : nat.
Variable A : list string -> string -> Prop.
Notation theap := (heap CtyModel.cval).
Variable sord : list nat -> list string -> list string.
Hypothesis sord_perm : forall at_ ks, Permutation ks (sord at_ ks).
Variable again : list nat -> list string.
Variable pick : list nat -> list nat.
Notation means := (means norm to_text binary fs).
Notation gives := (gives norm to_text binary fs).
Notation attrs_mean := (attrs_mean norm to_text binary fs).
Notation values := (values norm to_text binary fs again).
Notation all_values := (all_values norm to_text binary fs again).
Notation struct_decode := (struct_decode norm to_text binary (Some r) fs sord again pick).
Hypothesis A_var : forall Q k, A Q k -> k <> "var".

Lemma attrs_mean_keys : forall g P attrs vs g', attrs_mean g P attrs vs g' -> keys vs = keys attrs.
Proof. intros g P attrs vs g' H. induction H; unfold keys in *; simpl; congruence. Qed.

Lemma attrs_mean_at : forall g P attrs vs g', attrs_mean g P attrs vs g' -> NoDup (keys attrs) ->
  (forall k e, lookup k attrs = Some e -> exists v, lookup k vs = Some v /\ means g Whole e v /\
     (forall v', In (P ++ [k], v') g' -> v' = v)) /\
  (forall names v, In (names, v) g' -> exists k, names = P ++ [k] /\ In k (keys attrs)).
Proof.
  intros g P attrs vs g' H. induction H as [|k e v l vs g' Hm H IH]; intros Hn.
  - split; [intros k e E; discriminate|intros names v []].
  - inversion Hn as [|? ? Hk Hn']; subst. destruct (IH Hn') as [IH1 IH2]. split.
    + intros k' e' E. simpl in E. simpl. destruct (eq_dec k' k) as [->|Hne].
      * inversion E; subst e'. exists v. repeat split; auto.
        intros v' [Hv|Hv]; [congruence|]. destruct (IH2 _ _ Hv) as [k2 [Ek Hk2]].
        apply app_inj_tail in Ek. destruct Ek as [_ <-]. contradiction.
      * destruct (IH1 k' e' E) as [v' [Ev [Hm' Hu]]]. exists v'. repeat split; auto.
        intros v2 [Hv|Hv]; [|auto]. inversion Hv as [[Hv1 Hv2]]. apply app_inj_tail in Hv1. destruct Hv1. congruence.
    + intros names v' [Hv|Hv].
      * inversion Hv; subst. exists k. split; [reflexivity|left; reflexivity].
      * destruct (IH2 _ _ Hv) as [k2 [Ek Hk2]]. exists k2. split; [exact Ek|right; exact Hk2].
Qed.

Lemma struct_attrs_ok : forall at_ g P attrs vs g' h p ok, attrs_mean g P attrs vs g' -> NoDup (keys attrs) ->
  good A h r -> walk h r P = Some p -> sees ok h r g ->
  (forall n, In n (keys attrs) -> A P n) ->
  (forall q k, ok q k -> q < p \/ (q = p /\ ~ In k (keys attrs))) ->
  exists h', struct_attrs norm to_text binary (Some r) fs (fun _ _ => sord at_) p attrs h = Ok (h', vs) /\
    good A h' r /\ grows (fun q k => q < p \/ (q = p /\ ~ In k (keys attrs))) h h' /\
    forall k, In k (keys attrs) -> stored P p g' k h'.
Proof.
  intros at_ g P attrs vs g' h p ok Ha Hn G Hw Hs HA Hok.
  pose proof (attrs_mean_keys _ _ _ _ _ Ha) as Hk.
  destruct (attrs_mean_at _ _ _ _ _ Ha Hn) as [Hat _].
  set (ok1 := fun q k => q < p \/ (q = p /\ ~ In k (keys attrs))).
  assert (Hs1 : sees ok1 h r g) by (eapply sees_weaken; [|exact Hs]; exact Hok).
  unfold struct_attrs.
  destruct (range_ok (fun _ _ => sord at_) (fun _ _ ks => sord_perm at_ ks)
              (fun h k e => do cv <- eval_at norm to_text binary h (Some r) fs e;
                            do h1 <- node_of (add_item h p k cv); Ok (h1, cv)) attrs vs
              (fun h1 => good A h1 r /\ grows ok1 h h1) (stored P p g') p 0 h Hn Hk) as [h' [E [[G' R'] Hst]]].
  - intros h1 k e El [G1 R1].
    destruct (Hat k e El) as [v [Ev [Hm Hu]]].
    assert (Hkin : In k (keys attrs)) by (apply lookup_Some_key; exists e; exact El).
    set (ok2 := fun q k' => q < p \/ (q = p /\ k' <> k)).
    assert (H12 : forall q k', ok1 q k' -> ok2 q k').
    { intros q k' [Hq|[Hq Hnk]]; [left; exact Hq|right; split; [exact Hq|]]. intros ->. contradiction. }
    assert (Hw1 : walk h1 r P = Some p) by (eapply grows_walk; eauto).
    rewrite (eval_at_means norm to_text binary A ok1 h1 r g fs e v G1 (sees_grows _ _ _ _ _ R1 Hs1) Hm). cbn [bindr].
    destruct (good_item A ok2 h1 r P p k v G1 Hw1 (HA k Hkin)) as [h2 [Ei [G2 [R2 Hl]]]].
    { intros [Hq|[_ Hq]]; [lia|contradiction]. }
    rewrite Ei. cbn [node_of bindr].
    exists h2, v. split; [reflexivity|]. split; [exact Ev|]. split; [split; [exact G2|]|split].
    + eapply grows_trans; [exact R1|]. eapply grows_weaken; [exact H12|exact R2].
    + intros v' Hv'. rewrite (Hu v' Hv'). exact Hl.
    + intros k' Hne Hst. eapply stored_grows; [exact R2| |exact Hst]. right; split; [reflexivity|exact Hne].
  - split; [exact G|apply grows_refl].
  - exists h'. auto.
Qed.

Lemma good_nodes : forall ls t (h : theap) P p, good A h r -> walk h r P = Some p ->
  exists h' c, add_nodes h p t ls = Some (h', c) /\ good A h' r /\ grows (fun _ _ => True) h h' /\
    exists c', walk h' r (P ++ t :: ls) = Some c'.
Proof.
  induction ls as [|l ls IH]; intros t h P p G Hw; cbn [add_nodes].
  - destruct (good_node A h r P p t G Hw) as [h' [c [E [G' [_ [R Hw']]]]]]. rewrite E. exists h', c.
    split; [reflexivity|]. split; [exact G'|]. split; [exact R|]. exists c. exact Hw'.
  - destruct (good_node A h r P p t G Hw) as [h1 [c [E [G1 [_ [R1 Hw1]]]]]]. rewrite E.
    destruct (IH l h1 (P ++ [t]) c G1 Hw1) as [h2 [c2 [E2 [G2 [R2 [c' W2]]]]]]. exists h2, c2. split; [exact E2|].
    split; [exact G2|]. split; [eapply grows_trans; eauto|]. exists c'. rewrite <- app_assoc in W2. exact W2.
Qed.

Lemma struct_nodes_ok : forall bs (h : theap) P p, good A h r -> walk h r P = Some p ->
  exists h', struct_nodes p bs h = Ok h' /\ good A h' r /\ grows (fun _ _ => True) h h' /\
    forall t ls, In (t, ls) bs -> exists c, walk h' r (P ++ t :: ls) = Some c.
Proof.
  induction bs as [|[t ls] bs IH]; intros h P p G Hw; cbn [struct_nodes].
  - exists h. split; [reflexivity|]. split; [exact G|]. split; [apply grows_refl|]. intros t ls [].
  - destruct (good_nodes ls t h P p G Hw) as [h1 [c [E [G1 [R1 [c' W1]]]]]]. rewrite E. cbn [node_of bindr fst].
    destruct (IH h1 P p G1 (grows_walk _ _ _ _ _ _ R1 Hw)) as [h2 [E2 [G2 [R2 H2]]]]. exists h2.
    split; [exact E2|]. split; [exact G2|]. split; [eapply grows_trans; eauto|].
    intros t' ls' [Ein|Hin]; [|apply H2; exact Hin]. inversion Ein; subst. exists c'. eapply grows_walk; eauto.
Qed.

(* Fields decoded once more. *)
Lemma again_ok : forall g e x h P p ok, container e = true -> gives g e x ->
  good A h r -> walk h r P = Some p -> sees ok h r g ->
  (forall Q k, again_item P e Q k -> A Q k) ->
  (forall q k, ok q k -> q < p \/ (q = p /\ ~ again_item P e P k)) ->
  exists h', again_into norm to_text binary (Some r) fs h p e = Ok h' /\ good A h' r /\ grows ok h h'.
Proof.
  intros g e x h P p ok Hc Hg G Hw Hs HA Hok. inversion Hg as [l xs Hall|ks es xs El Hn Hall|args|e' v x' Hp]; subst; try discriminate.
  - pose proof (proj2 (gives_elem norm to_text binary fs r A g) l xs Hall) as He.
    destruct (tuple_into_ok norm to_text binary fs r A g l xs He h P p 0 ok G Hw Hs) as [h' [E [G' R']]].
    + intros j e Q k' Hj Hi. apply HA. eapply ai_tuple; eauto.
    + intros q k j e Hq Hj. destruct (Hok q k Hq) as [Hlt|[-> Hn]]; [left; exact Hlt|right; split; [reflexivity|]].
      intros Hp ->. apply Hn. eapply ai_tuple; [exact Hj|]. constructor. exact Hp.
    + exists h'. cbn [again_into]. rewrite E. auto.
  - pose proof (proj2 (gives_elem norm to_text binary fs r A g) es xs Hall) as He.
    destruct (obj_into_ok norm to_text binary fs r A g ks es xs El He h P p ok G Hw Hs) as [h' [E [G' R']]].
    + intros n e Q k' Hin Hi. apply HA. eapply ai_obj; eauto.
    + intros q k n e Hq Hin. destruct (Hok q k Hq) as [Hlt|[-> Hni]]; [left; exact Hlt|right; split; [reflexivity|]].
      intros Hp ->. apply Hni. eapply ai_obj; [exact Hin|]. constructor. exact Hp.
    + exists h'. cbn [again_into]. rewrite E. auto.
  - destruct e; discriminate.
Qed.

Lemma do_again_ok : forall g (attrs : list (string * vexpr)) ks (h : theap) P p (ok : nat -> string -> Prop), NoDup (keys attrs) ->
  (forall k e, In k ks -> In (k, e) attrs -> container e = true /\ (exists x, gives g e x) /\
     (forall Q k', again_item P e Q k' -> A Q k') /\
     (forall q k', ok q k' -> q < p \/ (q = p /\ ~ again_item P e P k'))) ->
  good A h r -> walk h r P = Some p -> sees ok h r g ->
  exists h', do_again norm to_text binary (Some r) fs h p attrs ks = Ok h' /\ good A h' r /\ grows ok h h'.
Proof.
  intros g attrs ks. induction ks as [|k ks IH]; intros h P p ok Hn H G Hw Hs; cbn [do_again].
  - exists h. split; [reflexivity|]. split; [exact G|apply grows_refl].
  - destruct (lookup k attrs) as [e|] eqn:El.
    + destruct (H k e (or_introl eq_refl) ltac:(apply lookup_In; exact El)) as [Hc [[x Hg] [HA Hok]]].
      destruct (again_ok g e x h P p ok Hc Hg G Hw Hs HA Hok) as [h1 [E1 [G1 R1]]]. rewrite E1. cbn [bindr].
      destruct (IH h1 P p ok Hn) as [h2 [E2 [G2 R2]]].
      * intros k' e' Hk' Hin. apply (H k' e'); [right; exact Hk'|exact Hin].
      * exact G1.
      * eapply grows_walk; eauto.
      * eapply sees_grows; eauto.
      * exists h2. split; [exact E2|]. split; [exact G2|]. eapply grows_trans; eauto.
    + apply (IH h P p ok Hn); auto. intros k' e' Hk' Hin. apply (H k' e'); [right; exact Hk'|exact Hin].
Qed.

(* ----- bodies ----- *)

Definition sallowed (at_ : list nat) (P : list string) (b : vbody) : Prop :=
  (forall at' R c n e, struct_inner (at_, P) b (at', R) c -> In (n, e) (vb_attrs c) ->
     A R n /\ (In n (again at') -> forall Q k, again_item R e Q k -> A Q k)) /\
  (forall at' R c, struct_inner (at_, P) b (at', R) c ->
     (forall Q k rest, A Q k -> R <> Q ++ k :: rest) /\ ~ In "var" R).

Lemma sallowed_down : forall at_ P attrs bs i t ls b, sallowed at_ P (VBody attrs bs) ->
  nth_error bs i = Some (t, ls, b) -> sallowed (at_ ++ [i]) (P ++ t :: ls) b.
Proof.
  intros at_ P attrs bs i t ls b [H1 H2] Hn. split.
  - intros at' R c n e Hi. apply (H1 at' R c n e). eapply si_down; [constructor; exact Hn|exact Hi].
  - intros at' R c Hi. apply (H2 at' R c). eapply si_down; [constructor; exact Hn|exact Hi].
Qed.

Definition apart (at_ : list nat) (P : list string) (b : vbody) (k : string) : Prop :=
  ~ In k (keys (vb_attrs b)) /\
  forall n e, In n (again at_) -> In (n, e) (vb_attrs b) -> ~ again_item P e P k.

Definition sdecodes (g : env) (at_ : list nat) (P : list string) (b : vbody) (s : sres) : Prop := forall h p ok,
  good A h r -> walk h r P = Some p -> sees ok h r g -> sallowed at_ P b ->
  (forall q k, ok q k -> q < p \/ (q = p /\ apart at_ P b k)) ->
  exists h' s', struct_decode b at_ h p = Ok (h', s') /\ picked pick at_ s s' /\
    good A h' r /\ grows (fun q k => q < p \/ (q = p /\ apart at_ P b k)) h h'.

Definition d_all (g : env) (at_ : list nat) (P : list string) (i : nat) (bs : blocks) (ss : list (nat * sres)) : Prop :=
  (forall j s, In (j, s) ss -> i <= j /\ j < i + List.length bs) /\
  forall j t ls b, nth_error bs j = Some (t, ls, b) -> t <> "" /\ exists s, In (i + j, s) ss /\
    sdecodes g (at_ ++ [i + j]) (P ++ t :: ls) b s.

Scheme values_ind2 := Minimality for VarSpec.values Sort Prop
  with all_values_ind2 := Minimality for VarSpec.all_values Sort Prop.
Combined Scheme values_all_ind from values_ind2, all_values_ind2.

Definition sblocks (bs : blocks) : list (string * list string * sdec) :=
  map (fun b => (fst b, struct_decode (snd b))) bs.

Lemma struct_unfold : forall attrs bs at_ h p, struct_decode (VBody attrs bs) at_ h p =
  do a <- struct_attrs norm to_text binary (Some r) fs (fun _ _ => sord at_) p attrs h;
  do h2 <- struct_nodes p (map fst bs) (fst a);
  do h3 <- do_again norm to_text binary (Some r) fs h2 p attrs (again at_);
  do s <- do_blocks at_ h3 p (sblocks bs) (pick at_);
  Ok (fst s, SRes (snd a) (snd s)).
Proof.
  intros attrs bs at_ h p. cbn [VarModel.struct_decode].
  replace ((fix go (l : list (string * list string * vbody)) : list (string * list string * sdec) :=
              match l with
              | [] => []
              | (t, ls, b) :: l' => (t, ls, struct_decode b) :: go l'
              end) bs) with (sblocks bs); [reflexivity|].
  unfold sblocks. induction bs as [|[[t ls] b] bs IH]; [reflexivity|]. simpl. rewrite IH. reflexivity.
Qed.

Lemma blocks_ok : forall g at_ P attrs bs ss, d_all g at_ P 0 bs ss -> sallowed at_ P (VBody attrs bs) ->
  forall is h p, good A h r -> walk h r P = Some p -> sees (fun q _ => q <= p) h r g ->
  (forall t ls, In (t, ls) (map fst bs) -> exists c, walk h r (P ++ t :: ls) = Some c) ->
  exists h' ts, do_blocks at_ h p (sblocks bs) is = Ok (h', ts) /\ all_picked pick at_ ss is ts /\ between r A h p h'.
Proof.
  intros g at_ P attrs bs ss [Hran Hd] Hal. induction is as [|i is IH]; intros h p G Hw Hs Hc; cbn [do_blocks].
  - exists h, []. split; [reflexivity|]. split; [constructor|]. split; [exact G|apply grows_refl].
  - unfold sblocks at 1. rewrite nth_error_map. destruct (nth_error bs i) as [[[t ls] b]|] eqn:En; cbn [option_map].
    + destruct (Hd i t ls b En) as [Ht [s [Hin Hdec]]]. cbn [fst snd].
      destruct (Hc t ls) as [c Wc].
      { apply in_map_iff. exists (t, ls, b). split; [reflexivity|]. apply (nth_error_In bs i). exact En. }
      unfold get_node. destruct (string_dec t ""); [contradiction|].
      assert (Wp : walk h p (t :: ls) = Some c) by (rewrite walk_app, Hw in Wc; exact Wc).
      rewrite Wp. cbn [node_of bindr].
      assert (Hpc : p < c).
      { cbn [walk] in Wp. destruct (get h p) as [nd|] eqn:Ep; [|discriminate].
        destruct (grep h (ndowns nd) t) as [d|] eqn:Ed; [|discriminate].
        destruct (child_lt h p nd t d (g_inv _ _ _ G) Ep Ed) as [_ [H1 [H2 _]]].
        destruct (walk_lt h ls d c (g_inv _ _ _ G) H2 Wp). lia. }
      destruct (Hdec h c (fun q _ => q <= p) G Wc Hs) as [h1 [s' [E1 [Hp1 [G1 R1]]]]].
      { eapply sallowed_down; eauto. }
      { intros q k Hq. left. lia. }
      simpl Nat.add in *. rewrite E1. cbn [bindr fst snd].
      assert (B1 : between r A h p h1).
      { split; [exact G1|]. eapply grows_weaken; [|exact R1]. simpl. intros q k Hq. left. lia. }
      destruct (IH h1 p G1) as [h2 [ts [E2 [Hp2 B2]]]].
      { apply (between_walk _ _ _ _ _ _ _ B1 Hw). }
      { apply (between_sees _ _ _ _ _ _ B1 Hs). }
      { intros t' ls' Hin'. destruct (Hc t' ls' Hin') as [c' Wc']. exists c'. apply (between_walk _ _ _ _ _ _ _ B1 Wc'). }
      rewrite E2. cbn [bindr fst snd]. exists h2, ((i, s') :: ts). split; [reflexivity|]. split.
      * eapply pi_some; eauto.
      * eapply between_trans; eauto.
    + destruct (IH h p G Hw Hs Hc) as [h2 [ts [E2 [Hp2 B2]]]]. exists h2, ts. split; [exact E2|]. split; [|exact B2].
      apply pi_none; [|exact Hp2]. intros s Hin. destruct (Hran i s Hin) as [_ Hlt].
      apply nth_error_None in En. simpl in Hlt. unfold blocks in *. lia.
Qed.

Lemma struct_all : (forall g at_ P b s, values g at_ P b s -> sdecodes g at_ P b s) /\
  (forall g at_ P i bs ss, all_values g at_ P i bs ss -> d_all g at_ P i bs ss).
Proof.
  apply (values_all_ind norm to_text binary fs again).
  - intros g at_ P attrs bs vs g' ss Hn Hm Hag _ Hss h p ok G Hw Hs Hal Hok. rewrite struct_unfold.
    assert (HA : forall n, In n (keys attrs) -> A P n).
    { intros n Hin. apply in_map_iff in Hin. destruct Hin as [[n' e] [En Hin]]. simpl in En. subst n'.
      exact (proj1 (proj1 Hal at_ P (VBody attrs bs) n e (si_here _ _) Hin)). }
    destruct (struct_attrs_ok at_ g P attrs vs g' h p ok Hm Hn G Hw Hs HA) as [h1 [E1 [G1 [R1 Hst]]]].
    { intros q k Hq. destruct (Hok q k Hq) as [Hlt|[-> [Hk _]]]; auto. }
    rewrite E1. cbn [bindr fst snd].
    assert (Hw1 : walk h1 r P = Some p) by (eapply grows_walk; eauto).
    destruct (struct_nodes_ok (map fst bs) h1 P p G1 Hw1) as [h2 [E2 [G2 [R2 Hc2]]]]. rewrite E2. cbn [bindr].
    assert (Hw2 : walk h2 r P = Some p) by (eapply grows_walk; eauto).
    assert (Hg2 : sees ok h2 r g).
    { eapply sees_grows; [eapply grows_weaken; [|exact R2]; simpl; auto|].
      eapply sees_grows; [eapply grows_weaken; [|exact R1]|exact Hs].
      intros q k Hq. destruct (Hok q k Hq) as [Hlt|[-> [Hk _]]]; auto. }
    set (ok3 := fun q k => q < p \/ (q = p /\ forall n e, In n (again at_) -> In (n, e) attrs -> ~ again_item P e P k)).
    destruct (do_again_ok g attrs (again at_) h2 P p ok3 Hn) as [h3 [E3 [G3 R3]]].
    { intros k e Hk Hin. destruct (Hag k e Hk Hin) as [Hcont [Hgx _]]. split; [exact Hcont|]. split; [exact Hgx|]. split.
      - intros Q k' Hi. apply (proj2 (proj1 Hal at_ P (VBody attrs bs) k e (si_here _ _) Hin) Hk Q k' Hi).
      - intros q k' [Hq|[Hq Hno]]; [left; exact Hq|right; split; [exact Hq|]]. apply (Hno k e Hk Hin). }
    { exact G2. }
    { exact Hw2. }
    { eapply sees_weaken; [|exact Hg2]. intros q k Hq. destruct (Hok q k Hq) as [Hlt|[-> [_ Hno]]]; [left; exact Hlt|].
      right. split; [reflexivity|exact Hno]. }
    rewrite E3. cbn [bindr].
    assert (Hw3 : walk h3 r P = Some p) by (eapply grows_walk; eauto).
    assert (Hst3 : forall k, In k (keys attrs) -> stored P p g' k h3).
    { intros k Hk. eapply stored_grows; [exact R3| |].
      - right. split; [reflexivity|]. intros n e Hn' Hin Hi. destruct (Hag n e Hn' Hin) as [_ [_ Hno]].
        apply (Hno k Hi). exact Hk.
      - eapply stored_grows; [exact R2|exact Logic.I|]. apply Hst. exact Hk. }
    destruct (proj2 Hal at_ P (VBody attrs bs) (si_here _ _)) as [HP HPv].
    assert (Hs3 : sees (fun q _ => q <= p) h3 r (g' ++ g)).
    { apply (sees_more r A g P g' h3 p G3 Hw3).
      - intros names v Hin. destruct (proj2 (attrs_mean_at _ _ _ _ _ Hm Hn) names v Hin) as [k [-> Hk]].
        exists k. split; [reflexivity|]. split; [apply (A_var P k (HA k Hk))|apply Hst3; exact Hk].
      - intros Q n rest EQ HA'. apply (HP Q n rest HA' EQ).
      - exact HPv.
      - eapply sees_weaken; [|eapply sees_grows; [exact R3|]].
        + simpl. intros q k [Hq|[Hq _]]; auto.
        + eapply sees_weaken; [|exact Hg2]. intros q k Hq. destruct (Hok q k Hq) as [Hlt|[-> [_ Hno]]]; [left; exact Hlt|].
          right. split; [reflexivity|exact Hno]. }
    destruct (blocks_ok (g' ++ g) at_ P attrs bs ss Hss Hal (pick at_) h3 p G3 Hw3 Hs3) as [h4 [ts [E4 [Hp4 B4]]]].
    { intros t ls Hin. destruct (Hc2 t ls Hin) as [c Wc]. exists c. eapply grows_walk; eauto. }
    rewrite E4. cbn [bindr fst snd]. exists h4, (SRes vs ts). split; [reflexivity|]. split; [constructor; exact Hp4|].
    split; [exact (proj1 B4)|].
    eapply grows_trans; [|eapply grows_weaken; [|exact (proj2 B4)]; simpl; intros q k Hq; lia].
    eapply grows_trans; [|eapply grows_weaken; [|exact R3]; intros q k [Hq|[Hq Hk]]; [left; exact Hq|right; split; [exact Hq|exact (proj2 Hk)]]].
    eapply grows_trans; [|eapply grows_weaken; [|exact R2]; simpl; auto].
    eapply grows_weaken; [|exact R1]. intros q k [Hq|[Hq Hk]]; [left; exact Hq|right; split; [exact Hq|exact (proj1 Hk)]].
  - intros g at_ P i. split; [intros j s []|]. intros [|j] t ls b E; discriminate.
  - intros g at_ P i t ls b bs s ss Ht _ Hb _ [Hran Hl]. split.
    + intros j s' [Ein|Hin]; [inversion Ein; subst; simpl; lia|]. destruct (Hran j s' Hin). simpl. lia.
    + intros [|j] t' ls' b' E; simpl in E.
      * inversion E; subst. split; [exact Ht|]. exists s. rewrite Nat.add_0_r. split; [left; reflexivity|exact Hb].
      * destruct (Hl j t' ls' b' E) as [Ht' [s' [Hin Hd]]]. split; [exact Ht'|]. exists s'.
        rewrite Nat.add_succ_r. split; [right; exact Hin|exact Hd].
Qed.
End S.

(* ----- whole documents ----- *)

(* The tree before decoding: the root, with the values given beforehand. *)
Definition given_tree (given : list (string * CtyModel.cval)) : heap CtyModel.cval := [mkNode "var" given None []].

Lemma given_walk : forall given Q p, walk (given_tree given) 0 Q = Some p -> Q = [] /\ p = 0.
Proof. intros given [|n Q] p E; simpl in E; [inversion E; auto|discriminate]. Qed.

Lemma given_good : forall (A : list string -> string -> Prop) given, NoDup (map fst given) ->
  (forall k, In k (map fst given) -> A [] k) -> good A (given_tree given) 0.
Proof.
  intros A given Hn HA. split.
  - intros p nd E. destruct p as [|[|p]]; simpl in E; inversion E; subst; simpl. repeat split; try constructor; try exact Hn.
    all: contradiction.
  - eexists. split; reflexivity.
  - intros Q p nd k Hw E Hk. apply given_walk in Hw. destruct Hw as [-> ->]. simpl in E. inversion E; subst. apply HA. exact Hk.
Qed.

Lemma given_sees : forall (ok : nat -> string -> Prop) given, NoDup (map fst given) ->
  (forall k, In k (map fst given) -> ok 0 k /\ k <> "var") -> sees ok (given_tree given) 0 (given_env given).
Proof.
  intros ok given Hn Hok names x Hin. unfold given_env in Hin. apply in_map_iff in Hin.
  destruct Hin as [[k v] [E Hin]]. simpl in E. inversion E; subst.
  assert (Hk : In k (map fst given)) by (apply (in_map fst) in Hin; exact Hin).
  destruct (Hok k Hk) as [H1 H2]. eapply vi_item; [reflexivity|exact H2|exact H1|]. simpl. apply In_lookup; [exact Hn|exact Hin].
Qed.

Theorem document_gives : forall norm to_text binary fs given b x ord,
  NoDup (map fst given) -> (forall k, In k (map fst given) -> ~ In k (map fst (vb_attrs b))) ->
  well_named (value_at given b) (body_at b) ->
  body_gives norm to_text binary fs (given_env given) [] b x ->
  (forall p site ks, Permutation ks (ord p site ks)) ->
  exists h', decode_vbody norm to_text binary (Some 0) fs ord b (given_tree given) 0 = Ok (h', x).
Proof.
  intros norm to_text binary fs given b x ord Hn Hd [Hw1 [Hw2 Hw3]] Hb Hord.
  destruct (proj1 (body_all norm to_text binary fs 0 (value_at given b) ord Hord Hw2) _ _ _ _ Hb
              (given_tree given) 0 (fun q k => q = 0 /\ ~ In k (map fst (vb_attrs b)))) as [h' [E _]].
  - apply given_good; [exact Hn|]. intros k Hk. left. auto.
  - reflexivity.
  - apply given_sees; [exact Hn|]. intros k Hk. split; [split; [reflexivity|apply Hd; exact Hk]|].
    apply (Hw2 [] k). left. auto.
  - split.
    + intros R c n e Q k Hi Hin He. right. exists R, c, n, e. auto.
    + intros R c Hi. split; [|apply Hw3; exists c; exact Hi].
      intros Q k rest HA. apply (Hw1 Q k R rest HA). exists c. exact Hi.
  - intros q k [-> Hk]. right. split; [reflexivity|exact Hk].
  - exists h'. exact E.
Qed.

Theorem document_values : forall norm to_text binary fs again given b s sord pick,
  NoDup (map fst given) ->
  (forall k n e, In k (map fst given) -> In (n, e) (vb_attrs b) -> k <> n /\ (In n (again []) -> ~ again_item [] e [] k)) ->
  well_named (struct_value_at again given b) (struct_body_at b) ->
  values norm to_text binary fs again (given_env given) [] [] b s ->
  (forall at_ ks, Permutation ks (sord at_ ks)) ->
  exists h' s', struct_decode norm to_text binary (Some 0) fs sord again pick b [] (given_tree given) 0 = Ok (h', s') /\
    picked pick [] s s'.
Proof.
  intros norm to_text binary fs again given b s sord pick Hn Hd [Hw1 [Hw2 Hw3]] Hb Hord.
  destruct (proj1 (struct_all norm to_text binary fs 0 (struct_value_at again given b) sord Hord again pick Hw2) _ _ _ _ _ Hb
              (given_tree given) 0 (fun q k => q = 0 /\ apart again [] [] b k)) as [h' [s' [E [Hp _]]]].
  - apply given_good; [exact Hn|]. intros k Hk. left. auto.
  - reflexivity.
  - apply given_sees; [exact Hn|]. intros k Hk. split.
    + split; [reflexivity|]. split.
      * intros Hin. apply in_map_iff in Hin. destruct Hin as [[n e] [En Hin]]. simpl in En. subst n.
        apply (proj1 (Hd k k e Hk Hin) eq_refl).
      * intros n e Hna Hin. apply (proj2 (Hd k n e Hk Hin) Hna).
    + apply (Hw2 [] k). left. auto.
  - split.
    + intros at' R c n e Hi Hin. split.
      * right. exists at', R, c, n, e. auto.
      * intros Hna Q k Hk. right. exists at', R, c, n, e. auto.
    + intros at' R c Hi. split; [|apply Hw3; exists at', c; exact Hi].
      intros Q k rest HA. apply (Hw1 Q k R rest HA). exists at', c. exact Hi.
  - intros q k [-> Hk]. right. split; [reflexivity|exact Hk].
  - exists h', s'. auto.
Qed.
