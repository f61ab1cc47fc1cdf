(* Proofs about TreeModel.v against TreeSpec.v (sequential node tree). *)

From Verif Require Import Base TreeModel TreeSpec.

Section P.
Context {V : Type}.
Notation heap := (heap V).
Notation node := (node V).
Notation spec := (spec V).

(* ------------------------------------------------------------ heap basics *)

Lemma length_set_nth : forall A n (x : A) l, length (set_nth n x l) = length l.
Proof. intros A n x l; revert n; induction l as [|y l IH]; intros [|n]; simpl; auto. Qed.

Lemma nth_set_nth_eq : forall A n (x : A) l, n < length l -> nth_error (set_nth n x l) n = Some x.
Proof.
  intros A n x l; revert n; induction l as [|y l IH]; intros [|n] Hl; simpl in *; try lia; auto.
  apply IH; lia.
Qed.

Lemma nth_set_nth_ne : forall A n m (x : A) l, n <> m -> nth_error (set_nth n x l) m = nth_error l m.
Proof.
  intros A n m x l; revert n m; induction l as [|y l IH]; intros [|n] [|m] Hne; simpl; auto; try lia.
Qed.

Lemma get_lt : forall (h : heap) p nd, get h p = Some nd -> p < length h.
Proof. intros h p nd E. apply nth_error_Some. unfold get in E. congruence. Qed.

Lemma get_ex : forall (h : heap) p, p < length h -> exists nd, get h p = Some nd.
Proof.
  intros h p Hp. unfold get. destruct (nth_error h p) eqn:E; [eauto|].
  apply nth_error_None in E; lia.
Qed.

Lemma get_set : forall (h : heap) p q nd, p < length h ->
  get (set_nth p nd h) q = if Nat.eq_dec q p then Some nd else get h q.
Proof.
  intros h p q nd Hp; unfold get; destruct (Nat.eq_dec q p) as [->|Hn].
  - apply nth_set_nth_eq; exact Hp.
  - apply nth_set_nth_ne; congruence.
Qed.

Lemma get_snoc : forall (h : heap) nd q,
  get (h ++ [nd]) q = if Nat.eq_dec q (length h) then Some nd else get h q.
Proof.
  intros h nd q; unfold get. destruct (Nat.eq_dec q (length h)) as [->|Hn].
  - rewrite nth_error_app2 by lia. rewrite Nat.sub_diag. reflexivity.
  - destruct (Nat.lt_ge_cases q (length h)) as [Hl|Hl].
    + apply nth_error_app1; exact Hl.
    + rewrite (proj2 (nth_error_None h q)) by lia.
      apply nth_error_None. rewrite app_length; simpl; lia.
Qed.

(* ------------------------------------------------------------- invariants *)

Definition Inv (h : heap) : Prop := forall p nd, get h p = Some nd ->
  (forall c, In c (ndowns nd) -> p < c /\ exists cd, get h c = Some cd /\ nup cd = Some p) /\
  NoDup (map fst (named h (ndowns nd))) /\
  NoDup (keys (ndata nd)).

Definition Rel (h : heap) (s : spec) : Prop :=
  length h = s_next s /\
  (forall p nd, get h p = Some nd -> named h (ndowns nd) = s_kids s p /\ ndata nd = s_items s p) /\
  (forall p, s_next s <= p -> s_kids s p = [] /\ s_items s p = []).

Lemma named_ext : forall (h h' : heap) ds,
  (forall c, In c ds -> exists cd cd', get h c = Some cd /\ get h' c = Some cd' /\ nname cd' = nname cd) ->
  named h' ds = named h ds.
Proof.
  intros h h' ds; induction ds as [|d ds IH]; intros Hall; simpl; [reflexivity|].
  destruct (Hall d (or_introl eq_refl)) as [cd [cd' [E1 [E2 E3]]]].
  rewrite E1, E2, E3. f_equal. apply IH. intros c Hc; apply Hall; right; exact Hc.
Qed.

Lemma grep_lookup : forall (h : heap) ds n, grep h ds n = lookup n (named h ds).
Proof.
  intros h ds n; induction ds as [|d ds IH]; simpl; [reflexivity|].
  destruct (get h d) as [nd|]; simpl; [|exact IH].
  destruct (string_dec (nname nd) n) as [E|E]; destruct (eq_dec n (nname nd)) as [E'|E'];
    try congruence; exact IH.
Qed.

Lemma remove_key_notin : forall (k : string) (m : list (string * nat)),
  ~ In k (map fst m) -> remove_key k m = m.
Proof.
  intros k m; induction m as [|[k' v] m IH]; simpl; intros Hn; [reflexivity|].
  destruct (eq_dec k k') as [E|E]; [exfalso; apply Hn; left; congruence|].
  f_equal; apply IH; tauto.
Qed.

Lemma drop_first_named : forall (h : heap) ds n,
  NoDup (map fst (named h ds)) -> named h (drop_first h ds n) = remove_key n (named h ds).
Proof.
  intros h ds n; induction ds as [|d ds IH]; simpl; [reflexivity|].
  destruct (get h d) as [nd|] eqn:E; simpl.
  - intros Hnd; inversion Hnd as [|? ? Hnot Hnd']; subst.
    destruct (string_dec (nname nd) n) as [En|En]; destruct (eq_dec n (nname nd)) as [E'|E'];
      try congruence.
    + rewrite remove_key_notin; [reflexivity|]. congruence.
    + simpl. rewrite E. simpl. f_equal. apply IH; exact Hnd'.
  - intros Hnd. rewrite E. simpl. apply IH; exact Hnd.
Qed.

Lemma drop_first_incl : forall (h : heap) ds n c, In c (drop_first h ds n) -> In c ds.
Proof.
  intros h ds n c; induction ds as [|d ds IH]; simpl; [tauto|].
  destruct (get h d) as [nd|]; simpl; [destruct (string_dec (nname nd) n)|]; simpl; tauto.
Qed.

Lemma NoDup_map_remove_key : forall (k : string) (m : list (string * nat)),
  NoDup (map fst m) -> NoDup (map fst (remove_key k m)).
Proof. intros k m Hm. apply (NoDup_keys_remove k m Hm). Qed.

Lemma init_Inv : forall name, Inv (init name : heap).
Proof.
  intros name p nd E. unfold init, new_tree, get in E; simpl in E.
  destruct p as [|p]; simpl in E.
  - inversion E; subst; simpl. repeat split; try constructor; tauto.
  - destruct p; discriminate.
Qed.

Lemma init_Rel : forall name, Rel (init name) s_init.
Proof.
  intros name; repeat split; simpl; auto;
  unfold init, new_tree, get in H; destruct p as [|[|p]]; simpl in H; inversion H; reflexivity.
Qed.

(* AddNode on an existing receiver. *)
Lemma add_node_ok : forall h s p n, Inv h -> Rel h s -> p < length h ->
  exists h' c, add_node h p n = Some (h', c) /\ s_add1 s p n = (fst (s_add1 s p n), c) /\
    Inv h' /\ Rel h' (fst (s_add1 s p n)) /\ c < length h' /\ length h <= length h'.
Proof.
  intros h s p n HI HR Hp. destruct (get_ex h p Hp) as [nd E].
  destruct HR as [Hlen [Hrel Hout]].
  destruct (Hrel p nd E) as [Hk Hi].
  unfold add_node, s_add1. rewrite E, grep_lookup, Hk.
  destruct (lookup n (s_kids s p)) as [c|] eqn:El; simpl.
  - exists h, c. split; [reflexivity|]. split; [reflexivity|]. split; [exact HI|].
    split; [split; auto|]. split; [|lia].
    rewrite <- Hk in El. apply lookup_In in El. unfold named in El.
    apply in_flat_map in El. destruct El as [d [Hd Hin]].
    destruct (HI p nd E) as [Hc _]. destruct (Hc d Hd) as [_ [cd [Ed _]]].
    rewrite Ed in Hin. simpl in Hin. destruct Hin as [Hin|[]]. inversion Hin; subst.
    eapply get_lt; exact Ed.
  - set (c := length h).
    set (pn := mkNode (nname nd) (ndata nd) (nup nd) (ndowns nd ++ [c])).
    set (cn := mkNode n [] (Some p) []).
    set (h' := set_nth c cn (set_nth p pn (h ++ [mkNode n [] None []]))).
    assert (Hl' : length h' = S (length h)).
    { unfold h'. rewrite !length_set_nth, app_length; simpl; lia. }
    assert (Hg : forall q, get h' q = if Nat.eq_dec q c then Some cn
                           else if Nat.eq_dec q p then Some pn else get h q).
    { intros q. unfold h'. rewrite get_set by (rewrite length_set_nth, app_length; unfold c; simpl; lia).
      destruct (Nat.eq_dec q c) as [Hq|Hq]; [reflexivity|].
      rewrite get_set by (rewrite app_length; simpl; lia).
      destruct (Nat.eq_dec q p) as [Hq'|Hq']; [reflexivity|].
      rewrite get_snoc. destruct (Nat.eq_dec q (length h)); [contradiction|reflexivity]. }
    assert (Hpc : p <> c) by (unfold c; lia).
    assert (Hname : forall d dd, get h d = Some dd -> exists dd', get h' d = Some dd' /\
              nname dd' = nname dd /\ ndata dd' = ndata dd /\ nup dd' = nup dd).
    { intros d dd Ed. pose proof (get_lt _ _ _ Ed). rewrite Hg.
      destruct (Nat.eq_dec d c) as [Hq|Hq]; [unfold c in Hq; lia|].
      destruct (Nat.eq_dec d p) as [->|Hq'].
      - exists pn; split; [reflexivity|]. replace dd with nd by congruence. auto.
      - eauto. }
    assert (Hnamed : forall q qd, get h q = Some qd -> named h' (ndowns qd) = named h (ndowns qd)).
    { intros q qd Eq. apply named_ext. intros d Hd.
      destruct (HI q qd Eq) as [Hc _]. destruct (Hc d Hd) as [_ [dd [Ed _]]].
      destruct (Hname d dd Ed) as [dd' [Ed' [En _]]]. exists dd, dd'. auto. }
    assert (Hpnamed : named h' (ndowns nd ++ [c]) = s_kids s p ++ [(n, c)]).
    { unfold named. rewrite flat_map_app. fold (named h' (ndowns nd)).
      rewrite (Hnamed p nd E), Hk. simpl. rewrite Hg.
      destruct (Nat.eq_dec c c); [reflexivity|congruence]. }
    assert (Hpkeys : NoDup (map fst (s_kids s p ++ [(n, c)]))).
    { rewrite map_app; simpl. apply (Permutation_NoDup (Permutation_cons_append _ n)).
      constructor; [apply lookup_None in El; exact El|].
      rewrite <- Hk. apply (HI p nd E). }
    exists h', c. split; [reflexivity|]. split; [unfold c; rewrite Hlen; reflexivity|].
    split; [|split; [|unfold c; lia]].
    + intros q qd Eq. rewrite Hg in Eq.
      destruct (Nat.eq_dec q c) as [->|Hqc].
      { inversion Eq; subst; simpl. repeat split; try constructor; tauto. }
      destruct (Nat.eq_dec q p) as [->|Hqp].
      { inversion Eq; subst qd; clear Eq. unfold pn at 1 2 3; cbn [ndowns ndata nup nname].
        split; [|split].
        - intros d Hd. apply in_app_or in Hd. destruct Hd as [Hd|[<-|[]]].
          + destruct (HI p nd E) as [Hc _]. destruct (Hc d Hd) as [Hlt [dd [Ed Hu]]].
            split; [exact Hlt|]. destruct (Hname d dd Ed) as [dd' [Ed' [_ [_ Hu']]]].
            exists dd'; split; [exact Ed'|congruence].
          + split; [unfold c; lia|]. exists cn. rewrite Hg.
            destruct (Nat.eq_dec c c); [split; reflexivity|congruence].
        - rewrite Hpnamed. exact Hpkeys.
        - apply (HI p nd E). }
      split; [|split].
      * intros d Hd. destruct (HI q qd Eq) as [Hc _]. destruct (Hc d Hd) as [Hlt [dd [Ed Hu]]].
        split; [exact Hlt|]. destruct (Hname d dd Ed) as [dd' [Ed' [_ [_ Hu']]]].
        exists dd'; split; [exact Ed'|congruence].
      * rewrite (Hnamed q qd Eq). apply (HI q qd Eq).
      * apply (HI q qd Eq).
    + split; [simpl; lia|]. split.
      * intros q qd Eq. simpl. unfold upd. rewrite Hg in Eq.
        destruct (Nat.eq_dec q c) as [->|Hqc].
        { inversion Eq; subst; simpl. destruct (Nat.eqb_spec c p); [congruence|].
          destruct (Hout c ltac:(unfold c; lia)) as [-> ->]. split; reflexivity. }
        destruct (Nat.eq_dec q p) as [->|Hqp].
        { inversion Eq; subst qd; clear Eq. rewrite Nat.eqb_refl. unfold pn; cbn [ndowns ndata].
          rewrite Hpnamed. unfold c; rewrite Hlen. split; [reflexivity|exact Hi]. }
        destruct (Nat.eqb_spec q p); [contradiction|].
        rewrite (Hnamed q qd Eq). apply Hrel; exact Eq.
      * intros q Hq; simpl in *. unfold upd. destruct (Nat.eqb_spec q p) as [->|]; [lia|].
        apply Hout; lia.
Qed.

Lemma add_nodes_ok : forall names tag h s p, Inv h -> Rel h s -> p < length h ->
  exists h' c s', add_nodes h p tag names = Some (h', c) /\ s_add s p (tag :: names) = (s', c) /\
    Inv h' /\ Rel h' s' /\ c < length h'.
Proof.
  induction names as [|n ns IH]; intros tag h s p HI HR Hp.
  - destruct (add_node_ok h s p tag HI HR Hp) as [h' [c [E1 [E2 [HI' [HR' [Hc _]]]]]]].
    exists h', c, (fst (s_add1 s p tag)). cbn [add_nodes s_add]. rewrite E1, E2. cbn [fst]. auto.
  - destruct (add_node_ok h s p tag HI HR Hp) as [h' [c [E1 [E2 [HI' [HR' [Hc _]]]]]]].
    destruct (IH n h' _ c HI' HR' Hc) as [h2 [c2 [s2 [E3 [E4 [HI2 [HR2 Hc2]]]]]]].
    exists h2, c2, s2. cbn [add_nodes]. rewrite E1, E3. split; [reflexivity|].
    change (s_add s p (tag :: n :: ns)) with
      (let (s', c0) := s_add1 s p tag in s_add s' c0 (n :: ns)).
    rewrite E2. auto.
Qed.

Lemma walk_ok : forall names h s p, Inv h -> Rel h s -> p < length h ->
  walk h p names = s_walk s p names.
Proof.
  induction names as [|n ns IH]; intros h s p HI HR Hp; simpl; [reflexivity|].
  destruct (get_ex h p Hp) as [nd E]. rewrite E, grep_lookup.
  destruct HR as [Hlen [Hrel Hout]]. destruct (Hrel p nd E) as [Hk Hi]. rewrite Hk.
  destruct (lookup n (s_kids s p)) as [c|] eqn:El; [|reflexivity].
  apply IH; [exact HI|split; auto|].
  rewrite <- Hk in El. apply lookup_In in El. unfold named in El.
  apply in_flat_map in El. destruct El as [d [Hd Hin]].
  destruct (HI p nd E) as [Hc _]. destruct (Hc d Hd) as [_ [cd [Ed _]]].
  rewrite Ed in Hin. simpl in Hin. destruct Hin as [Hin|[]]. inversion Hin; subst.
  eapply get_lt; exact Ed.
Qed.

(* Replacing the data or shrinking the children of one node. *)
Lemma set_ok : forall (h : heap) (s : spec) p nd data' downs' kids',
  Inv h -> Rel h s -> get h p = Some nd ->
  (forall c, In c downs' -> In c (ndowns nd)) ->
  named h downs' = kids' -> NoDup (map fst kids') -> NoDup (keys data') ->
  let h' := set_nth p (mkNode (nname nd) data' (nup nd) downs') h in
  Inv h' /\ Rel h' (mkSpec (s_next s) (upd (s_kids s) p kids') (upd (s_items s) p data')).
Proof.
  intros h s p nd data' downs' kids' HI HR E Hincl Hnamed' Hnd1 Hnd2 h'.
  pose proof (get_lt _ _ _ E) as Hp.
  set (pn := mkNode (nname nd) data' (nup nd) downs') in *.
  assert (Hg : forall q, get h' q = if Nat.eq_dec q p then Some pn else get h q).
  { intros q; unfold h'; apply get_set; exact Hp. }
  assert (Hname : forall d dd, get h d = Some dd -> exists dd', get h' d = Some dd' /\
            nname dd' = nname dd /\ nup dd' = nup dd).
  { intros d dd Ed. rewrite Hg. destruct (Nat.eq_dec d p) as [->|]; [|eauto].
    exists pn; split; [reflexivity|]. replace dd with nd by congruence. auto. }
  assert (Hnamed : forall q qd ds, get h q = Some qd -> (forall c, In c ds -> In c (ndowns qd)) ->
            named h' ds = named h ds).
  { intros q qd ds Eq Hi. apply named_ext. intros d Hd.
    destruct (HI q qd Eq) as [Hc _]. destruct (Hc d (Hi d Hd)) as [_ [dd [Ed _]]].
    destruct (Hname d dd Ed) as [dd' [Ed' [En _]]]. exists dd, dd'; auto. }
  destruct HR as [Hlen [Hrel Hout]].
  split.
  - intros q qd Eq. rewrite Hg in Eq. destruct (Nat.eq_dec q p) as [->|Hq].
    + inversion Eq; subst qd; clear Eq. unfold pn at 1 2 3; cbn [ndowns ndata nup nname].
      split; [|split; [|exact Hnd2]].
      * intros d Hd. destruct (HI p nd E) as [Hc _]. destruct (Hc d (Hincl d Hd)) as [Hlt [dd [Ed Hu]]].
        split; [exact Hlt|]. destruct (Hname d dd Ed) as [dd' [Ed' [_ Hu']]].
        exists dd'; split; [exact Ed'|congruence].
      * rewrite (Hnamed p nd downs' E Hincl), Hnamed'. exact Hnd1.
    + split; [|split].
      * intros d Hd. destruct (HI q qd Eq) as [Hc _]. destruct (Hc d Hd) as [Hlt [dd [Ed Hu]]].
        split; [exact Hlt|]. destruct (Hname d dd Ed) as [dd' [Ed' [_ Hu']]].
        exists dd'; split; [exact Ed'|congruence].
      * rewrite (Hnamed q qd _ Eq (fun c Hc => Hc)). apply (HI q qd Eq).
      * apply (HI q qd Eq).
  - split; [unfold h'; rewrite length_set_nth; exact Hlen|]. split.
    + intros q qd Eq. simpl. unfold upd. rewrite Hg in Eq. destruct (Nat.eq_dec q p) as [->|Hq].
      * inversion Eq; subst qd; clear Eq. unfold pn; cbn [ndowns ndata]. rewrite Nat.eqb_refl.
        rewrite (Hnamed p nd downs' E Hincl). auto.
      * destruct (Nat.eqb_spec q p); [contradiction|].
        rewrite (Hnamed q qd _ Eq (fun c Hc => Hc)). apply Hrel; exact Eq.
    + intros q Hq; simpl in *; unfold upd. destruct (Nat.eqb_spec q p) as [->|]; [lia|].
      apply Hout; exact Hq.
Qed.

(* Two specs that agree pointwise are the same for our purposes. *)
Lemma Rel_ext : forall h s s', Rel h s -> s_next s' = s_next s ->
  (forall p, s_kids s' p = s_kids s p) -> (forall p, s_items s' p = s_items s p) -> Rel h s'.
Proof.
  intros h s s' [Hl [Hr Ho]] En Ek Ei. split; [congruence|]. split.
  - intros p nd E. rewrite Ek, Ei. apply Hr; exact E.
  - intros p Hp. rewrite Ek, Ei. apply Ho; lia.
Qed.

Lemma step_ok : forall o h s, Inv h -> Rel h s ->
  snd (step h o) = snd (s_step s o) /\ Inv (fst (step h o)) /\ Rel (fst (step h o)) (fst (s_step s o)).
Proof.
  intros o h s HI HR. pose proof HR as [Hlen [Hrel Hout]].
  assert (Hcase : forall p, (p <? s_next s = true /\ exists nd, get h p = Some nd) \/
                            (p <? s_next s = false /\ get h p = None)).
  { intros p. destruct (Nat.ltb_spec p (s_next s)) as [Hl|Hl].
    - left; split; [reflexivity|]. apply get_ex; lia.
    - right; split; [reflexivity|]. apply nth_error_None; lia. }
  destruct o as [p tag names|p tag names|p n|p k v|p k|p k|p]; simpl;
    destruct (Hcase p) as [[-> [nd E]]|[-> E]].
  - destruct (add_nodes_ok names tag h s p HI HR (get_lt _ _ _ E)) as [h' [c [s' [E1 [E2 [HI' [HR' Hc]]]]]]].
    cbn [s_add] in E2. rewrite E1, E2. simpl; auto.
  - assert (En : add_nodes h p tag names = None).
    { destruct names; simpl; unfold add_node; rewrite E; reflexivity. }
    rewrite En; simpl; auto.
  - rewrite E; simpl. split; [|auto]. unfold get_node.
    destruct (string_dec tag ""); [reflexivity|].
    rewrite (walk_ok (tag :: names) h s p HI HR (get_lt _ _ _ E)). reflexivity.
  - rewrite E; simpl; auto.
  - unfold delete_node. rewrite E; simpl.
    destruct (Hrel p nd E) as [Hk Hi].
    destruct (set_ok h s p nd (ndata nd) (drop_first h (ndowns nd) n) (remove_key n (s_kids s p)) HI HR E)
      as [HI' HR'].
    + intros c; apply drop_first_incl.
    + rewrite <- Hk. apply drop_first_named. apply (HI p nd E).
    + apply NoDup_map_remove_key. rewrite <- Hk. apply (HI p nd E).
    + apply (HI p nd E).
    + split; [reflexivity|]. split; [exact HI'|].
      eapply Rel_ext; [exact HR'| reflexivity | reflexivity |].
      intros q; simpl; unfold upd. destruct (Nat.eqb_spec q p) as [->|]; [congruence|reflexivity].
  - unfold delete_node; rewrite E; simpl; auto.
  - unfold add_item; rewrite E; simpl. destruct (Hrel p nd E) as [Hk Hi].
    destruct (set_ok h s p nd (insert k v (ndata nd)) (ndowns nd) (s_kids s p) HI HR E)
      as [HI' HR']; auto.
    + rewrite <- Hk. apply (HI p nd E).
    + apply NoDup_keys_insert. apply (HI p nd E).
    + split; [reflexivity|]. split; [exact HI'|].
      eapply Rel_ext; [exact HR'| reflexivity | | ].
      * intros q; simpl; unfold upd. destruct (Nat.eqb_spec q p) as [->|]; reflexivity.
      * intros q; simpl; unfold upd. destruct (Nat.eqb_spec q p) as [->|]; [congruence|reflexivity].
  - unfold add_item; rewrite E; simpl; auto.
  - unfold delete_item; rewrite E; simpl. destruct (Hrel p nd E) as [Hk Hi].
    destruct (set_ok h s p nd (remove_key k (ndata nd)) (ndowns nd) (s_kids s p) HI HR E)
      as [HI' HR']; auto.
    + rewrite <- Hk. apply (HI p nd E).
    + apply NoDup_keys_remove. apply (HI p nd E).
    + split; [reflexivity|]. split; [exact HI'|].
      eapply Rel_ext; [exact HR'| reflexivity | | ].
      * intros q; simpl; unfold upd. destruct (Nat.eqb_spec q p) as [->|]; reflexivity.
      * intros q; simpl; unfold upd. destruct (Nat.eqb_spec q p) as [->|]; [congruence|reflexivity].
  - unfold delete_item; rewrite E; simpl; auto.
  - rewrite E; simpl. destruct (Hrel p nd E) as [Hk Hi]. rewrite Hi. auto.
  - rewrite E; simpl; auto.
  - rewrite E; simpl. destruct (Hrel p nd E) as [Hk Hi]. rewrite Hk. auto.
  - rewrite E; simpl; auto.
Qed.

Lemma run_ok : forall ops h s, Inv h -> Rel h s ->
  snd (run h ops) = snd (s_run s ops) /\ Inv (fst (run h ops)) /\ Rel (fst (run h ops)) (fst (s_run s ops)).
Proof.
  induction ops as [|o ops IH]; intros h s HI HR; simpl; [auto|].
  destruct (step_ok o h s HI HR) as [Ho [HI1 HR1]].
  destruct (step h o) as [h1 r]; destruct (s_step s o) as [s1 r']; simpl in *.
  destruct (IH h1 s1 HI1 HR1) as [Hos [HI2 HR2]].
  destruct (run h1 ops) as [h2 rs]; destruct (s_run s1 ops) as [s2 rs']; simpl in *.
  subst; auto.
Qed.

Lemma tree_refines_spec : forall name (ops : list (op V)), snd (run (init name) ops) = snd (s_run s_init ops).
Proof. intros name ops. apply run_ok; [apply init_Inv|apply init_Rel]. Qed.

Definition reachable (h : heap) : Prop := exists name ops, h = fst (run (init name) ops).

Lemma reachable_Inv : forall h, reachable h -> Inv h.
Proof.
  intros h [name [ops ->]].
  apply (run_ok ops (init name) s_init (init_Inv name) (init_Rel name)).
Qed.

Lemma siblings_unique : forall h p nd, reachable h -> get h p = Some nd ->
  NoDup (map fst (named h (ndowns nd))) /\ map snd (named h (ndowns nd)) = ndowns nd.
Proof.
  intros h p nd HR E. pose proof (reachable_Inv h HR p nd E) as [Hc [Hn _]].
  split; [exact Hn|]. clear Hn. induction (ndowns nd) as [|d ds IH]; simpl; [reflexivity|].
  destruct (Hc d (or_introl eq_refl)) as [_ [cd [Ed _]]]. rewrite Ed; simpl. f_equal.
  apply IH. intros c Hx; apply Hc; right; exact Hx.
Qed.

(* A child stays reachable under its name until it is deleted there. *)
Definition deletes (p : nat) (n : string) (o : op V) : Prop :=
  match o with ODel q m => q = p /\ m = n | _ => False end.

Lemma s_add1_keeps : forall (s : spec) q m p n c,
  lookup n (s_kids s p) = Some c -> lookup n (s_kids (fst (s_add1 s q m)) p) = Some c.
Proof.
  intros s q m p n c El. unfold s_add1. destruct (lookup m (s_kids s q)) eqn:E; simpl; [exact El|].
  unfold upd. destruct (Nat.eqb_spec p q) as [->|]; [|exact El].
  rewrite lookup_app, El. reflexivity.
Qed.

Lemma s_add_keeps : forall path (s : spec) q p n c,
  lookup n (s_kids s p) = Some c -> lookup n (s_kids (fst (s_add s q path)) p) = Some c.
Proof.
  induction path as [|m path IH]; intros s q p n c El; simpl; [exact El|].
  destruct (s_add1 s q m) as [s' c'] eqn:E. apply IH.
  change s' with (fst (s', c')). rewrite <- E. apply s_add1_keeps; exact El.
Qed.

Lemma s_step_keeps : forall o (s : spec) p n c, ~ deletes p n o ->
  lookup n (s_kids s p) = Some c -> lookup n (s_kids (fst (s_step s o)) p) = Some c.
Proof.
  intros o s p n c Hd El.
  destruct o as [q tag names|q tag names|q m|q k v|q k|q k|q]; cbn [s_step];
    destruct (q <? s_next s); try exact El.
  - pose proof (s_add_keeps (tag :: names) s q p n c El) as Hk.
    destruct (s_add s q (tag :: names)) as [s' c']; exact Hk.
  - cbn [fst s_kids]. unfold upd. destruct (Nat.eqb_spec p q) as [->|]; [|exact El].
    rewrite lookup_remove. destruct (eq_dec n m) as [->|]; [|exact El].
    exfalso; apply Hd; simpl; auto.
Qed.

Lemma s_run_keeps : forall ops (s : spec) p n c, (forall o, In o ops -> ~ deletes p n o) ->
  lookup n (s_kids s p) = Some c -> lookup n (s_kids (fst (s_run s ops)) p) = Some c.
Proof.
  induction ops as [|o ops IH]; intros s p n c Hall El; simpl; [exact El|].
  pose proof (s_step_keeps o s p n c (Hall o (or_introl eq_refl)) El) as El1.
  destruct (s_step s o) as [s1 r]; simpl in El1.
  specialize (IH s1 p n c (fun o' Ho' => Hall o' (or_intror Ho')) El1).
  destruct (s_run s1 ops); exact IH.
Qed.

Lemma run_app : forall ops1 ops2 (h : heap),
  run h (ops1 ++ ops2) =
  (fst (run (fst (run h ops1)) ops2), snd (run h ops1) ++ snd (run (fst (run h ops1)) ops2)).
Proof.
  induction ops1 as [|o ops1 IH]; intros ops2 h; simpl.
  - destruct (run h ops2); reflexivity.
  - destruct (step h o) as [h1 r]. rewrite IH. destruct (run h1 ops1) as [h2 rs]; simpl.
    reflexivity.
Qed.

Lemma s_add1_found : forall (s : spec) p n, lookup n (s_kids (fst (s_add1 s p n)) p) = Some (snd (s_add1 s p n)).
Proof.
  intros s p n. unfold s_add1. destruct (lookup n (s_kids s p)) eqn:E; simpl; [exact E|].
  unfold upd. rewrite Nat.eqb_refl, lookup_app, E. simpl. destruct (eq_dec n n); congruence.
Qed.

Lemma child_stays : forall h p n h1 c ops,
  reachable h -> n <> "" -> step h (OAdd p n []) = (h1, RNode (Some c)) ->
  (forall o, In o ops -> ~ deletes p n o) ->
  snd (step (fst (run h1 ops)) (OGet p n [])) = RNode (Some c) /\
  snd (step (fst (run h1 ops)) (OAdd p n [])) = RNode (Some c).
Proof.
  intros h p n h1 c ops [name [ops0 ->]] Hne Hadd Hnodel.
  destruct (run_ok ops0 (init name) s_init (init_Inv name) (init_Rel name)) as [_ [HI HR]].
  remember (fst (run (init name) ops0)) as h eqn:Eh.
  remember (fst (s_run s_init ops0)) as s eqn:Es. clear Eh Es.
  destruct (step_ok (OAdd p n []) h s HI HR) as [Ho [HI1 HR1]].
  rewrite Hadd in *. cbn [fst snd] in *.
  assert (Hp : p <? s_next s = true).
  { cbn [s_step] in Ho. destruct (p <? s_next s); [reflexivity|discriminate]. }
  cbn [s_step] in HR1, Ho. rewrite Hp in *.
  cbn [s_add] in *. pose proof (s_add1_found s p n) as Hf.
  assert (Hn1 : p <? s_next (fst (s_add1 s p n)) = true).
  { unfold s_add1. destruct (lookup n (s_kids s p)); simpl; [exact Hp|].
    apply Nat.ltb_lt in Hp. apply Nat.ltb_lt. lia. }
  destruct (s_add1 s p n) as [s1 c1]; cbn [fst snd] in *. inversion Ho; subst c1.
  destruct (run_ok ops h1 s1 HI1 HR1) as [_ [HI2 HR2]].
  pose proof (s_run_keeps ops s1 p n c Hnodel Hf) as Hk.
  assert (Hn2 : p <? s_next (fst (s_run s1 ops)) = true).
  { clear -Hn1 HI1 HR1. revert h1 s1 HI1 HR1 Hn1. induction ops as [|o ops IH]; intros h1 s1 HI1 HR1 Hn1; simpl; [exact Hn1|].
    destruct (step_ok o h1 s1 HI1 HR1) as [_ [HI2 HR2]].
    assert (Hm : s_next s1 <= s_next (fst (s_step s1 o))).
    { assert (Ha1 : forall (s : spec) q m, s_next s <= s_next (fst (s_add1 s q m))).
      { intros s q m. unfold s_add1. destruct (lookup m (s_kids s q)); simpl; lia. }
      assert (Ha : forall path (s : spec) q, s_next s <= s_next (fst (s_add s q path))).
      { induction path as [|m path IHp]; intros s q; simpl; [lia|].
        specialize (Ha1 s q m). destruct (s_add1 s q m) as [s' c']; simpl in Ha1.
        specialize (IHp s' c'). lia. }
      destruct o as [q tag names|q tag names|q m|q k v|q k|q k|q]; cbn [s_step];
        destruct (q <? s_next s1); cbn [fst s_next]; try lia.
      specialize (Ha (tag :: names) s1 q). destruct (s_add s1 q (tag :: names)); exact Ha. }
    specialize (IH (fst (step h1 o)) (fst (s_step s1 o)) HI2 HR2).
    destruct (s_step s1 o) as [s2 r]; cbn [fst] in *.
    destruct (s_run s2 ops) as [s3 rs]; cbn [fst] in *. apply IH.
    apply Nat.ltb_lt in Hn1. apply Nat.ltb_lt. lia. }
  set (h2 := fst (run h1 ops)) in *. set (s2 := fst (s_run s1 ops)) in *.
  split.
  - destruct (step_ok (OGet p n []) h2 s2 HI2 HR2) as [Hg _]. rewrite Hg.
    cbn [s_step]. rewrite Hn2. destruct (string_dec n ""); [contradiction|].
    cbn [s_walk snd]. rewrite Hk. reflexivity.
  - destruct (step_ok (OAdd p n []) h2 s2 HI2 HR2) as [Hg _]. rewrite Hg.
    cbn [s_step]. rewrite Hn2. cbn [s_add]. unfold s_add1. rewrite Hk. reflexivity.
Qed.

(* ------------------------------------------------------------------- delete *)

Lemma drop_first_split : forall (h : heap) ds n,
  (exists l1 c l2 cd, ds = l1 ++ c :: l2 /\ get h c = Some cd /\ nname cd = n /\
      (forall d dd, In d l1 -> get h d = Some dd -> nname dd <> n) /\
      drop_first h ds n = l1 ++ l2) \/
  ((forall d dd, In d ds -> get h d = Some dd -> nname dd <> n) /\ drop_first h ds n = ds).
Proof.
  intros h ds n; induction ds as [|d ds IH]; simpl.
  - right; split; [tauto|reflexivity].
  - destruct (get h d) as [dd|] eqn:Ed.
    + destruct (string_dec (nname dd) n) as [En|En].
      * left. exists [], d, ds, dd. simpl. repeat split; auto.
      * destruct IH as [[l1 [c [l2 [cd [E [Ec [Hn [Hl Hd]]]]]]]]|[Hl Hd]].
        { left. exists (d :: l1), c, l2, cd. subst ds; simpl. repeat split; auto.
          - intros d0 dd0 [<-|Hin] E0; [congruence|eauto].
          - rewrite Hd; reflexivity. }
        { right. split; [|rewrite Hd; reflexivity].
          intros d0 dd0 [<-|Hin] E0; [congruence|eauto]. }
    + destruct IH as [[l1 [c [l2 [cd [E [Ec [Hn [Hl Hd]]]]]]]]|[Hl Hd]].
      * left. exists (d :: l1), c, l2, cd. subst ds; simpl. repeat split; auto.
        { intros d0 dd0 [<-|Hin] E0; [congruence|eauto]. }
        { rewrite Hd; reflexivity. }
      * right. split; [|rewrite Hd; reflexivity].
        intros d0 dd0 [<-|Hin] E0; [congruence|eauto].
Qed.

Lemma delete_exact : forall h p nd n h', reachable h -> get h p = Some nd ->
  delete_node h p n = Some h' ->
  (* every other node record is untouched, and of p only Downs may change *)
  (forall q, q <> p -> get h' q = get h q) /\
  exists nd', get h' p = Some nd' /\ nname nd' = nname nd /\ ndata nd' = ndata nd /\ nup nd' = nup nd /\
  ((exists l1 c l2 cd, ndowns nd = l1 ++ c :: l2 /\ get h c = Some cd /\ nname cd = n /\
      (forall d dd, In d (l1 ++ l2) -> get h d = Some dd -> nname dd <> n) /\
      ndowns nd' = l1 ++ l2) \/
   ((forall d dd, In d (ndowns nd) -> get h d = Some dd -> nname dd <> n) /\
      ndowns nd' = ndowns nd)).
Proof.
  intros h p nd n h' HR E Ed. unfold delete_node in Ed. rewrite E in Ed. inversion Ed; subst h'; clear Ed.
  pose proof (get_lt _ _ _ E) as Hp. split.
  - intros q Hq. rewrite get_set by exact Hp. destruct (Nat.eq_dec q p); [contradiction|reflexivity].
  - eexists. rewrite get_set by exact Hp. destruct (Nat.eq_dec p p); [|congruence].
    split; [reflexivity|]. simpl. repeat split.
    destruct (drop_first_split h (ndowns nd) n) as [[l1 [c [l2 [cd [Eq [Ec [Hn [Hl Hd]]]]]]]]|Hr];
      [left|right; exact Hr].
    exists l1, c, l2, cd. repeat split; auto.
    intros d dd Hin Edd. apply in_app_or in Hin. destruct Hin as [Hin|Hin]; [eauto|].
    pose proof (proj1 (proj2 (reachable_Inv h HR p nd E))) as Hnd. rewrite Eq in Hnd.
    unfold named in Hnd. rewrite flat_map_app in Hnd. simpl in Hnd. rewrite Ec in Hnd.
    rewrite map_app in Hnd. apply NoDup_remove_2 with (l := map fst _) in Hnd.
    intros En. apply Hnd. apply in_or_app; right. apply in_map_iff.
    exists (nname dd, d). simpl; split; [congruence|]. apply in_flat_map.
    exists d. rewrite Edd. simpl; auto.
Qed.

(* ---------------------------------------------------------------- unfolding *)

Lemma unfold_total : forall fuel h p, Inv h -> p < length h -> length h - p <= fuel ->
  exists t, unfold_tree fuel h p = Some t /\ wf t /\ tid t = p.
Proof.
  induction fuel as [|f IH]; intros h p HI Hp Hf; [lia|].
  destruct (get_ex h p Hp) as [nd E]. simpl. rewrite E.
  destruct (HI p nd E) as [Hc [Hn Hd]].
  assert (Hgo : exists ts,
    (fix go (ds : list nat) : option (list (tree V)) :=
       match ds with
       | [] => Some []
       | d :: ds' => match unfold_tree f h d, go ds' with
                     | Some t, Some ts => Some (t :: ts)
                     | _, _ => None
                     end
       end) (ndowns nd) = Some ts /\ Forall wf ts /\ map tname ts = map fst (named h (ndowns nd))).
  { clear Hn. induction (ndowns nd) as [|d ds IHds]; simpl.
    - exists []; repeat split; constructor.
    - destruct (Hc d (or_introl eq_refl)) as [Hlt [dd [Ed _]]].
      destruct (IH h d HI (get_lt _ _ _ Ed)) as [t [Et [Hwt Hid]]].
      { pose proof (get_lt _ _ _ Ed); lia. }
      destruct IHds as [ts [Ets [Hws Hnames]]]; [intros c Hx; apply Hc; right; exact Hx|].
      rewrite Et, Ets, Ed. exists (t :: ts). repeat split; [constructor; assumption|].
      simpl. f_equal; [|exact Hnames].
      destruct f as [|f']; [discriminate|]. simpl in Et. rewrite Ed in Et.
      match type of Et with match ?x with _ => _ end = _ => destruct x; [|discriminate] end.
      inversion Et; reflexivity. }
  destruct Hgo as [ts [Ego [Hw Hnames]]]. rewrite Ego.
  eexists; split; [reflexivity|]. split; [|reflexivity].
  constructor; [rewrite Hnames; exact Hn|exact Hd|exact Hw].
Qed.

Lemma reachable_unfold : forall h p, reachable h -> p < length h ->
  exists t, unfold_tree (length h) h p = Some t /\ wf t.
Proof.
  intros h p HR Hp. destruct (unfold_total (length h) h p (reachable_Inv h HR) Hp) as [t [E [Hw _]]].
  - lia.
  - eauto.
Qed.

(* ------------------------------------------------------------------- search *)

Fixpoint tree_ind' (P : tree V -> Prop)
  (Hstep : forall id name data downs, Forall P downs -> P (Tr id name data downs)) (t : tree V) : P t :=
  match t with
  | Tr id name data downs =>
      Hstep id name data downs
        ((fix go (ds : list (tree V)) : Forall P ds :=
            match ds with
            | [] => Forall_nil P
            | d :: ds' => Forall_cons d (tree_ind' P Hstep d) (go ds')
            end) downs)
  end.

Lemma path_to_incl : forall (t : tree V) path t', path_to t path t' -> forall u, incl (tdowns t) (tdowns u) -> path_to u path t'.
Proof.
  intros t path t' Hp; destruct Hp as [t d Hin|t d path t' Hin Hp]; intros u Hi.
  - constructor; apply Hi; exact Hin.
  - constructor; [apply Hi; exact Hin|exact Hp].
Qed.

Lemma find_sound : forall (t : tree V) names r, find_node t names = Some r ->
  exists path, path_to t path r /\ chain names path.
Proof.
  induction t as [id name data downs IH] using tree_ind'. intros names r.
  destruct names as [|n0 rest]; simpl; [discriminate|].
  assert (Hgen : forall ds, Forall (fun t => forall names r, find_node t names = Some r ->
             exists path, path_to t path r /\ chain names path) ds ->
     incl ds downs ->
     (fix go (ds : list (tree V)) : option (tree V) :=
         match ds with
         | [] => None
         | item :: ds' =>
             if string_dec (tname item) n0 then
               match rest with
               | [] => Some item
               | _ => find_node item rest
               end
             else
               match find_node item (n0 :: rest) with
               | Some d => Some d
               | None => go ds'
               end
         end) ds = Some r -> exists path, path_to (Tr id name data downs) path r /\ chain (n0 :: rest) path).
  { induction ds as [|d ds IHds]; intros HF Hi E; [discriminate|].
    inversion HF as [|? ? Hd HF']; subst.
    destruct (string_dec (tname d) n0) as [En|En].
    - destruct rest as [|n1 rest'].
      + inversion E; subst r. exists [tname d]. split.
        * constructor. apply Hi; left; reflexivity.
        * rewrite En. constructor.
      + destruct (Hd (n1 :: rest') r E) as [path [Hp Hc]].
        exists (tname d :: path). split.
        * constructor; [apply Hi; left; reflexivity|exact Hp].
        * rewrite En. apply chain_take; exact Hc.
    - destruct (find_node d (n0 :: rest)) as [r'|] eqn:Ef.
      + inversion E; subst r'. destruct (Hd _ _ Ef) as [path [Hp Hc]].
        exists (tname d :: path). split; [|apply chain_skip; exact Hc].
        constructor; [apply Hi; left; reflexivity|exact Hp].
      + apply IHds; [exact HF'| |exact E]. intros x Hx; apply Hi; right; exact Hx. }
  intros E. apply (Hgen downs IH (incl_refl _) E).
Qed.

(* For a single name, the search is complete. *)
Lemma find_single_complete : forall (t : tree V) n path r, path_to t path r -> chain [n] path ->
  find_node t [n] <> None.
Proof.
  induction t as [id name data downs IH] using tree_ind'. intros n path r Hp Hc E.
  assert (Hex : exists d, In d downs /\ (tname d = n \/ exists path' r', path_to d path' r' /\ chain [n] path')).
  { inversion Hp as [t0 d Hin E1 E2|t0 d path' t' Hin Hp' E1 E2]; subst; simpl in Hin.
    - exists r; split; [exact Hin|]. left. inversion Hc as [|? ? ? Hc'|? ? ? Hc']; subst; auto; inversion Hc'.
    - exists d; split; [exact Hin|]. inversion Hc as [|? ? ? Hc'|? ? ? Hc']; subst; auto.
      right; eauto. }
  simpl in E. clear Hp Hc. destruct Hex as [d [Hin Hd]].
  induction downs as [|x downs IHd]; [destruct Hin|].
  inversion IH as [|? ? Hx IH']; subst.
  destruct (string_dec (tname x) n) as [En|En]; [discriminate|].
  destruct (find_node x [n]) eqn:Ef; [discriminate|].
  destruct Hin as [->|Hin]; [|apply (IHd IH' E Hin)].
  destruct Hd as [Hd|[path' [r' [Hp' Hc']]]]; [contradiction|].
  exact (Hx n path' r' Hp' Hc' Ef).
Qed.

(* With names all different along the tree (no name occurs at two nodes), the search is
   complete for every chain: committing to the first match loses nothing. *)
Fixpoint all_names (t : tree V) : list string :=
  let '(Tr _ name _ downs) := t in name :: flat_map all_names downs.

Lemma path_names : forall (t : tree V) path r, path_to t path r ->
  forall n, In n path -> In n (flat_map all_names (tdowns t)).
Proof.
  intros t path r Hp; induction Hp as [t d Hin|t d path t' Hin Hp IH]; intros n Hn.
  - destruct Hn as [<-|[]]. apply in_flat_map. exists d; split; [exact Hin|].
    destruct d; simpl; auto.
  - apply in_flat_map. exists d; split; [exact Hin|]. destruct Hn as [<-|Hn].
    + destruct d; simpl; auto.
    + destruct d as [i nm dt ds]; simpl. right. apply (IH n Hn).
Qed.

Lemma chain_in : forall names path, chain names path -> forall n, In n names -> In n path.
Proof.
  intros names path Hc; induction Hc; intros x Hx; simpl in *; intuition.
Qed.

Lemma chain_nonempty : forall names path, chain names path -> names <> [].
Proof. intros names path Hc; induction Hc; congruence. Qed.

Lemma NoDup_app_disj : forall A (l1 l2 : list A), NoDup (l1 ++ l2) ->
  NoDup l1 /\ NoDup l2 /\ (forall x, In x l1 -> In x l2 -> False).
Proof.
  intros A l1 l2; induction l1 as [|a l1 IH]; simpl; intros Hn.
  - repeat split; [constructor|exact Hn|tauto].
  - inversion Hn as [|? ? Hnot Hn']; subst. destruct (IH Hn') as [H1 [H2 H3]].
    repeat split; auto.
    + constructor; [|exact H1]. intros Hin; apply Hnot; apply in_or_app; auto.
    + intros x [<-|Hin] Hx; [apply Hnot; apply in_or_app; auto|eauto].
Qed.

Lemma find_complete_distinct : forall (t : tree V) names path r,
  NoDup (flat_map all_names (tdowns t)) -> path_to t path r -> chain names path ->
  find_node t names <> None.
Proof.
  induction t as [id name data downs IH] using tree_ind'. intros names path r Hnd Hp Hc E.
  simpl in Hnd.
  assert (Hex : exists d, In d downs /\
     ((exists n, names = [n] /\ tname d = n) \/
      (exists n rest path' r', names = n :: rest /\ tname d = n /\ path_to d path' r' /\ chain rest path') \/
      (exists path' r', path_to d path' r' /\ chain names path'))).
  { inversion Hp as [t0 d Hin E1 E2|t0 d path' t' Hin Hp' E1 E2]; subst; simpl in Hin.
    - exists r; split; [exact Hin|]. left.
      inversion Hc as [n0 En0|n0 nn pp Hc' En0 Ep0|m0 nn pp Hc' En0 Ep0]; subst.
      + eexists; split; reflexivity.
      + inversion Hc'.
      + inversion Hc'.
    - exists d; split; [exact Hin|].
      inversion Hc as [n0 En0|n0 nn pp Hc' En0 Ep0|m0 nn pp Hc' En0 Ep0]; subst.
      + inversion Hp'.
      + right; left. exists (tname d), nn, path', r. auto.
      + right; right; eauto. }
  destruct names as [|n0 rest]; [eapply chain_nonempty; eauto|].
  clear Hp Hc. simpl in E. destruct Hex as [d [Hin Hd]].
  induction downs as [|x downs IHd]; [destruct Hin|].
  inversion IH as [|? ? Hx IH']; subst.
  simpl in Hnd. apply NoDup_app_disj in Hnd. destruct Hnd as [Hndx [Hnds Hdisj]].
  assert (Hn0 : In n0 (flat_map all_names [d])).
  { simpl. rewrite app_nil_r. destruct Hd as [[n [En Ed]]|[[n [rest' [path' [r' [En [Ed _]]]]]]|[path' [r' [Hp' Hc']]]]].
    - inversion En; subst. destruct d; simpl; auto.
    - inversion En; subst. destruct d; simpl; auto.
    - destruct d as [i nm dt ds]; simpl. right.
      apply (path_names _ _ _ Hp'). eapply chain_in; [exact Hc'|left; reflexivity]. }
  simpl in Hn0; rewrite app_nil_r in Hn0.
  destruct Hin as [->|Hin].
  - (* the witness is below x itself *)
    destruct d as [i nm dt ds] eqn:Edd. simpl in Hndx. inversion Hndx as [|? ? Hnm Hndx']; subst.
    destruct (string_dec (tname (Tr i nm dt ds)) n0) as [En|En]; simpl in En.
    + subst nm. destruct rest as [|n1 rest']; [discriminate|].
      destruct Hd as [[n [En Ed]]|[[n [rest2 [path' [r' [En [Ed [Hp' Hc']]]]]]]|[path' [r' [Hp' Hc']]]]].
      * inversion En.
      * inversion En; subst. exact (Hx _ _ _ Hndx' Hp' Hc' E).
      * exfalso. apply Hnm. apply (path_names _ _ _ Hp'). eapply chain_in; [exact Hc'|left; reflexivity].
    + destruct (find_node (Tr i nm dt ds) (n0 :: rest)) eqn:Ef; [discriminate|].
      destruct Hd as [[n [En' Ed]]|[[n [rest2 [path' [r' [En' [Ed [Hp' Hc']]]]]]]|[path' [r' [Hp' Hc']]]]].
      * inversion En'; subst; simpl in *; congruence.
      * inversion En'; subst; simpl in *; congruence.
      * exact (Hx _ _ _ Hndx' Hp' Hc' Ef).
  - (* x is not on the way: it cannot contain n0 *)
    assert (Hnot : ~ In n0 (all_names x)).
    { intros Hx0. apply (Hdisj n0 Hx0). apply in_flat_map. exists d; auto. }
    destruct (string_dec (tname x) n0) as [En|En].
    + exfalso; apply Hnot. destruct x; simpl in *; auto.
    + destruct (find_node x (n0 :: rest)) as [r'|] eqn:Ef; [discriminate|].
      apply (IHd IH' Hnds E Hin).
Qed.

(* ---------------------------------------------------------------- variables *)

Lemma fold_data : forall (data : list (string * V)) acc k, NoDup (keys data) ->
  lookup k (fold_left (fun acc kv => if string_dec (fst kv) VAR then acc
                             else insert (fst kv) (CItem (snd kv)) acc) data acc)
  = if string_dec k VAR then lookup k acc else
    match lookup k data with Some v => Some (CItem v) | None => lookup k acc end.
Proof.
  induction data as [|[k0 v0] data IH]; intros acc k Hnd; simpl.
  - destruct (string_dec k VAR); reflexivity.
  - inversion Hnd as [|? ? Hnot Hnd']; subst. rewrite IH by exact Hnd'.
    destruct (string_dec k0 VAR) as [E0|E0]; simpl.
    + destruct (string_dec k VAR) as [Ek|Ek]; [reflexivity|].
      destruct (eq_dec k k0) as [E|E]; [congruence|reflexivity].
    + destruct (string_dec k VAR) as [Ek|Ek].
      * rewrite lookup_insert_ne; [reflexivity|congruence].
      * destruct (eq_dec k k0) as [->|E].
        { rewrite (proj2 (lookup_None k0 data) Hnot). apply lookup_insert_eq. }
        { rewrite lookup_insert_ne by exact E. reflexivity. }
Qed.

Fixpoint child_fields (ds : list (tree V)) (acc : list (string * cval V)) : list (string * cval V) :=
  match ds with
  | [] => acc
  | d :: ds' => child_fields ds' (insert (tname d) (CObject (variables d)) acc)
  end.

Definition own_fields (t : tree V) : list (string * cval V) :=
  fold_left (fun acc kv => if string_dec (fst kv) VAR then acc
                             else insert (fst kv) (CItem (snd kv)) acc) (tdata t)
    (child_fields (tdowns t) []).

Lemma variables_eq : forall (t : tree V), variables t =
  if string_dec (tname t) VAR then insert VAR (CObject (own_fields t)) (own_fields t) else own_fields t.
Proof. intros [id name data downs]; reflexivity. Qed.

Lemma child_fields_notin : forall ds acc k, ~ In k (map tname ds) ->
  lookup k (child_fields ds acc) = lookup k acc.
Proof.
  induction ds as [|d ds IH]; intros acc k Hn; simpl; [reflexivity|].
  rewrite IH by (intros Hi; apply Hn; right; exact Hi).
  apply lookup_insert_ne. intros ->; apply Hn; left; reflexivity.
Qed.

Lemma child_fields_in : forall ds acc d, NoDup (map tname ds) -> In d ds ->
  lookup (tname d) (child_fields ds acc) = Some (CObject (variables d)).
Proof.
  induction ds as [|x ds IH]; intros acc d Hnd Hin; [destruct Hin|]. simpl.
  inversion Hnd as [|? ? Hnot Hnd']; subst. destruct Hin as [->|Hin].
  - rewrite child_fields_notin by exact Hnot. apply lookup_insert_eq.
  - apply IH; assumption.
Qed.

Lemma own_lookup : forall (t : tree V) k, wf t ->
  lookup k (own_fields t) =
  if string_dec k VAR then lookup k (child_fields (tdowns t) []) else
  match lookup k (tdata t) with
  | Some v => Some (CItem v)
  | None => lookup k (child_fields (tdowns t) [])
  end.
Proof.
  intros t k Hw. inversion Hw; subst. unfold own_fields. apply fold_data. assumption.
Qed.

Lemma wf_child : forall (t : tree V) d, wf t -> In d (tdowns t) -> wf d.
Proof.
  intros t d Hw Hin. inversion Hw as [id name data downs Hn Hd HF]; subst. simpl in Hin.
  rewrite Forall_forall in HF. auto.
Qed.

Definition fields_of (self : bool) (t : tree V) : list (string * cval V) :=
  if self then variables t else own_fields t.

Lemma resolves_select : forall self (t : tree V) path v, resolves self t path v -> wf t ->
  select (CObject (fields_of self t)) path = Some (CItem v).
Proof.
  intros self t path v Hr; induction Hr as [self t k v Hk Hl|self t d path v Hin Hh Hns Hr IH|t path v Hn Hr IH];
    intros Hw; cbn [select].
  - assert (E : lookup k (fields_of self t) = Some (CItem v)).
    { assert (Eo : lookup k (own_fields t) = Some (CItem v)).
      { rewrite own_lookup by exact Hw. destruct (string_dec k VAR); [contradiction|]. rewrite Hl; reflexivity. }
      destruct self; simpl; [|exact Eo]. rewrite variables_eq.
      destruct (string_dec (tname t) VAR); [|exact Eo].
      rewrite lookup_insert_ne; [exact Eo|exact Hk]. }
    rewrite E; reflexivity.
  - assert (E : lookup (tname d) (fields_of self t) = Some (CObject (variables d))).
    { assert (Eo : lookup (tname d) (own_fields t) = Some (CObject (variables d))).
      { rewrite own_lookup by exact Hw. inversion Hw as [id name data downs Hn Hd HF]; subst. simpl in *.
        destruct (string_dec (tname d) VAR) as [Ev|Ev].
        - apply child_fields_in; assumption.
        - destruct Hh as [Hh|Hh]; [contradiction|]. rewrite Hh. apply child_fields_in; assumption. }
      destruct self; simpl; [|exact Eo]. rewrite variables_eq.
      destruct (string_dec (tname t) VAR) as [Et|Et]; [|exact Eo].
      rewrite lookup_insert_ne; [exact Eo|]. intros Ed; apply Hns; auto. }
    rewrite E. apply IH. eapply wf_child; eauto.
  - assert (E : lookup "var" (fields_of true t) = Some (CObject (own_fields t))).
    { simpl. rewrite variables_eq. destruct (string_dec (tname t) VAR); [|contradiction].
      apply lookup_insert_eq. }
    rewrite E. apply (IH Hw).
Qed.

Lemma child_fields_inv : forall ds k c, NoDup (map tname ds) ->
  lookup k (child_fields ds []) = Some c -> exists d, In d ds /\ tname d = k /\ c = CObject (variables d).
Proof.
  intros ds k c Hnd E. destruct (in_dec string_dec k (map tname ds)) as [Hin|Hin].
  - apply in_map_iff in Hin. destruct Hin as [d [En Hd]]. subst k.
    rewrite (child_fields_in ds [] d Hnd Hd) in E. inversion E; eauto.
  - rewrite child_fields_notin in E by exact Hin. discriminate.
Qed.

Lemma select_resolves : forall path self t v, wf t ->
  select (CObject (fields_of self t)) path = Some (CItem v) -> resolves self t path v.
Proof.
  induction path as [|k path IH]; intros self t v Hw; cbn [select]; [discriminate|].
  assert (Hown : forall c, lookup k (own_fields t) = Some c -> select c path = Some (CItem v) ->
     (self = true -> tname t = "var" -> k <> "var") -> resolves self t (k :: path) v).
  { intros c Ek Es Hns. rewrite own_lookup in Ek by exact Hw.
    inversion Hw as [id name data downs Hn Hd HF E0]. subst t; simpl in *.
    assert (Hcc : forall c, (k = "var" \/ lookup k data = None) ->
                lookup k (child_fields downs []) = Some c ->
                select c path = Some (CItem v) -> resolves self (Tr id name data downs) (k :: path) v).
    { intros c' Hh Ec Es'. apply child_fields_inv in Ec; [|exact Hn].
      destruct Ec as [d [Hin [<- ->]]]. apply res_child; auto.
      - intros [H1 [H2 H3]]. apply (Hns H1 H2 H3).
      - apply IH; [eapply wf_child; eauto|exact Es']. }
    destruct (string_dec k VAR) as [Ev|Ev]; [eapply Hcc; eauto|].
    destruct (lookup k data) as [v'|] eqn:El; [|eapply Hcc; eauto].
    inversion Ek; subst c. destruct path; cbn [select] in Es; [|discriminate].
    inversion Es; subst v'. apply res_item; [exact Ev|exact El]. }
  destruct self; cbn [fields_of].
  - rewrite variables_eq. destruct (string_dec (tname t) VAR) as [Et|Et].
    + rewrite lookup_insert. destruct (eq_dec k VAR) as [->|Ek].
      * intros Es. apply res_self; [exact Et|]. apply IH; [exact Hw|exact Es].
      * destruct (lookup k (own_fields t)) as [c|] eqn:E; [|discriminate].
        intros Es. apply (Hown c); auto.
    + destruct (lookup k (own_fields t)) as [c|] eqn:E; [|discriminate].
      intros Es. apply (Hown c); auto.
  - destruct (lookup k (own_fields t)) as [c|] eqn:E; [|discriminate].
    intros Es. apply (Hown c); auto. discriminate.
Qed.

Lemma variables_spec : forall (t : tree V) path v, wf t ->
  (select (CObject (variables t)) path = Some (CItem v) <-> resolves true t path v).
Proof.
  intros t path v Hw; split; intros Hx.
  - apply (select_resolves path true t v Hw Hx).
  - apply (resolves_select true t path v Hx Hw).
Qed.

End P.

(* -------------------------------------------------------- DefaultTreeFunctions *)

Section D.
Context {Fn : Type}.

Lemma overlay_lookup : forall (defaults t : list (string * Fn)) k, NoDup (keys defaults) ->
  lookup k (overlay t defaults) = match lookup k defaults with Some f => Some f | None => lookup k t end.
Proof.
  unfold overlay. induction defaults as [|[k0 f0] ds IH]; intros t k Hnd; simpl; [reflexivity|].
  inversion Hnd as [|? ? Hnot Hnd']; subst. rewrite IH by exact Hnd'.
  destruct (eq_dec k k0) as [->|E].
  - rewrite (proj2 (lookup_None k0 ds) Hnot). apply lookup_insert_eq.
  - destruct (lookup k ds); [reflexivity|]. apply lookup_insert_ne; exact E.
Qed.

Lemma default_tree_functions_spec : forall defaults fresh (ref : list (string * refval Fn)) nd ref',
  NoDup (keys defaults) ->
  default_tree_functions defaults fresh ref = Ok (nd, ref') ->
  (* the tree: the caller's, or a fresh one *)
  lookup "attributes" ref' = Some (RTree nd) /\
  (forall id, lookup "attributes" ref = Some (RTree id) -> nd = id) /\
  (lookup "attributes" ref = None -> nd = fresh) /\
  (* all other entries are kept *)
  (forall k, k <> "attributes" -> k <> "functions" -> lookup k ref' = lookup k ref) /\
  (* functions *)
  (lookup "functions" ref = None \/ lookup "functions" ref = Some RNil ->
     lookup "functions" ref' = Some (RFuncs defaults)) /\
  (forall t, lookup "functions" ref = Some (RFuncs t) -> exists t', lookup "functions" ref' = Some (RFuncs t') /\
      (forall k f, lookup k defaults = Some f -> lookup k t' = Some f) /\
      (forall k, lookup k defaults = None -> lookup k t' = lookup k t)) /\
  (forall x, lookup "functions" ref = Some (ROther x) -> lookup "functions" ref' = Some (ROther x)).
Proof.
  intros defaults fresh ref nd ref' Hnd E. unfold default_tree_functions in E.
  assert (Hgen : forall ref1 (nd1 : nat), lookup "attributes" ref1 = Some (RTree nd1) ->
    (forall k, k <> "attributes" -> lookup k ref1 = lookup k ref) ->
    match lookup FUNCTIONS ref1 with
    | None | Some RNil => Ok (nd1, insert FUNCTIONS (RFuncs defaults) ref1)
    | Some (RFuncs t) => Ok (nd1, insert FUNCTIONS (RFuncs (overlay t defaults)) ref1)
    | Some _ => Ok (nd1, ref1)
    end = Ok (nd, ref') ->
    nd = nd1 /\ lookup "attributes" ref' = Some (RTree nd1) /\
    (forall k, k <> "attributes" -> k <> "functions" -> lookup k ref' = lookup k ref) /\
    (lookup "functions" ref = None \/ lookup "functions" ref = Some RNil ->
       lookup "functions" ref' = Some (RFuncs defaults)) /\
    (forall t, lookup "functions" ref = Some (RFuncs t) -> exists t', lookup "functions" ref' = Some (RFuncs t') /\
        (forall k f, lookup k defaults = Some f -> lookup k t' = Some f) /\
        (forall k, lookup k defaults = None -> lookup k t' = lookup k t)) /\
    (forall x, lookup "functions" ref = Some (ROther x) -> lookup "functions" ref' = Some (ROther x))).
  { intros ref1 nd1 Ha Hk E1.
    assert (Ef : lookup FUNCTIONS ref1 = lookup "functions" ref) by (apply Hk; discriminate).
    rewrite Ef in E1.
    destruct (lookup "functions" ref) as [rv|] eqn:Er.
    - destruct rv as [id|t| |x]; inversion E1; subst nd1 ref'; clear E1; (split; [reflexivity|]);
        repeat split; try (intros; discriminate); auto;
        try (rewrite lookup_insert_ne; [exact Ha|discriminate]);
        try (intros k H1 H2; rewrite ?lookup_insert_ne by exact H2; auto; fail).
      + intros [?|?]; discriminate.
      + intros [?|?]; discriminate.
      + intros t0 Et; inversion Et; subst t0. exists (overlay t defaults). split; [apply lookup_insert_eq|].
        split; intros k; rewrite overlay_lookup by exact Hnd.
        * intros f ->; reflexivity.
        * intros ->; reflexivity.
      + intros _. apply lookup_insert_eq.
      + intros [?|?]; discriminate.
      + intros x0 Ex; inversion Ex; subst. exact Ef.
    - inversion E1; subst nd1 ref'; clear E1. split; [reflexivity|].
      repeat split; try (intros; discriminate); auto.
      + rewrite lookup_insert_ne; [exact Ha|discriminate].
      + intros k H1 H2. rewrite lookup_insert_ne by exact H2; auto.
      + intros _; apply lookup_insert_eq. }
  change ATTRIBUTES with "attributes" in *.
  destruct (lookup "attributes" ref) as [rv|] eqn:Ea.
  - destruct rv as [id|t| |x]; simpl in E; try discriminate.
    destruct (Hgen ref id Ea (fun k _ => eq_refl) E) as [-> [H1 [H2 [H3 [H4 H5]]]]].
    split; [exact H1|]. split; [intros id0 E0; congruence|]. split; [discriminate|]. auto.
  - simpl in E. destruct (Hgen (insert "attributes" (RTree fresh) ref) fresh) as [-> [H1 [H2 [H3 [H4 H5]]]]].
    + apply lookup_insert_eq.
    + intros k Hk. apply lookup_insert_ne; exact Hk.
    + exact E.
    + split; [exact H1|]. split; [discriminate|]. split; [reflexivity|]. auto.
Qed.
End D.
