(* Proofs for VarModel.v: what stays visible in the variable tree while it grows. *)

From Verif Require Import Base TreeModel TreeSpec TreeProofs.

Section P.
Context {V : Type}.
Notation heap := (heap V).

(* A specification state for any well-formed heap, so that the lemmas of TreeProofs.v apply. *)
Definition spec_of (h : heap) : spec V :=
  mkSpec (length h)
    (fun p => match get h p with Some nd => named h (ndowns nd) | None => [] end)
    (fun p => match get h p with Some nd => ndata nd | None => [] end).
Lemma spec_of_Rel : forall h, Rel h (spec_of h).
Proof.
  intros h. split; [reflexivity|]. split.
  - intros p nd E. simpl. rewrite E. auto.
  - intros p Hp. simpl in *. unfold get. rewrite (proj2 (nth_error_None h p)) by exact Hp. auto.
Qed.

(* Nothing a reference may use is lost from h to h': names, children, and the items that [ok]
   says are kept. *)
Definition grows (ok : nat -> string -> Prop) (h h' : heap) : Prop :=
  length h <= length h' /\
  forall p nd, get h p = Some nd -> exists nd', get h' p = Some nd' /\ nname nd' = nname nd /\
    (forall k, ok p k -> lookup k (ndata nd') = lookup k (ndata nd)) /\
    (forall n c, grep h (ndowns nd) n = Some c -> grep h' (ndowns nd') n = Some c).

Lemma grows_refl : forall ok h, grows ok h h.
Proof. intros ok h. split; [lia|]. intros p nd E. exists nd. auto. Qed.

Lemma grows_trans : forall ok h1 h2 h3, grows ok h1 h2 -> grows ok h2 h3 -> grows ok h1 h3.
Proof.
  intros ok h1 h2 h3 [L12 G12] [L23 G23]. split; [lia|]. intros p nd E.
  destruct (G12 p nd E) as [nd2 [E2 [N2 [D2 C2]]]]. destruct (G23 p nd2 E2) as [nd3 [E3 [N3 [D3 C3]]]].
  exists nd3. split; [exact E3|]. split; [congruence|]. split; [|eauto].
  intros k Hk. rewrite D3, D2 by exact Hk. reflexivity.
Qed.

Lemma grows_weaken : forall (ok ok' : nat -> string -> Prop) h h', (forall p k, ok' p k -> ok p k) ->
  grows ok h h' -> grows ok' h h'.
Proof.
  intros ok ok' h h' Hw [L G]. split; [exact L|]. intros p nd E.
  destruct (G p nd E) as [nd' [E' [N [D C]]]]. exists nd'. auto 8.
Qed.

Lemma grows_walk : forall ok h h' Q p q, grows ok h h' -> walk h p Q = Some q -> walk h' p Q = Some q.
Proof.
  intros ok h h' Q p q G. revert p. induction Q as [|n Q IH]; intros p; simpl; [auto|].
  destruct (get h p) as [nd|] eqn:E; [|discriminate].
  destruct (proj2 G p nd E) as [nd' [E' [_ [_ C]]]]. rewrite E'.
  destruct (grep h (ndowns nd) n) as [c|] eqn:Ec; [|discriminate].
  rewrite (C n c Ec). apply IH.
Qed.

(* ----- adding a node ----- *)

Lemma child_lt : forall (h : heap) p nd n c, Inv h -> get h p = Some nd -> grep h (ndowns nd) n = Some c ->
  In c (ndowns nd) /\ p < c /\ c < length h /\ exists cd, get h c = Some cd /\ nup cd = Some p /\ nname cd = n.
Proof.
  intros h p nd n c HI E Ec. rewrite grep_lookup in Ec. apply lookup_In in Ec.
  unfold named in Ec. apply in_flat_map in Ec. destruct Ec as [d [Hd Hin]].
  destruct (HI p nd E) as [Hc _]. destruct (Hc d Hd) as [Hlt [cd [Ed Hu]]].
  rewrite Ed in Hin. simpl in Hin. destruct Hin as [Hin|[]]. inversion Hin; subst.
  split; [exact Hd|]. split; [exact Hlt|]. split; [eapply get_lt; exact Ed|]. eauto.
Qed.

Lemma walk_lt : forall (h : heap) Q p q, Inv h -> p < length h -> walk h p Q = Some q -> p <= q /\ q < length h.
Proof.
  intros h Q p q HI. revert p. induction Q as [|n Q IH]; intros p Hp; simpl.
  - intros E; inversion E; subst; lia.
  - destruct (get h p) as [nd|] eqn:E; [|discriminate].
    destruct (grep h (ndowns nd) n) as [c|] eqn:Ec; [|discriminate]. intros Hw.
    destruct (child_lt h p nd n c HI E Ec) as [_ [H1 [H2 _]]]. specialize (IH c H2 Hw). lia.
Qed.

Lemma walk_app : forall (h : heap) P Q p, walk h p (P ++ Q) = match walk h p P with Some c => walk h c Q | None => None end.
Proof.
  intros h P Q. induction P as [|n P IH]; intros p; simpl; [reflexivity|].
  destruct (get h p) as [nd|]; [|reflexivity]. destruct (grep h (ndowns nd) n); [apply IH|reflexivity].
Qed.

Lemma walk_snoc_inv : forall (h : heap) Q n r q, walk h r (Q ++ [n]) = Some q ->
  exists p nd, walk h r Q = Some p /\ get h p = Some nd /\ grep h (ndowns nd) n = Some q.
Proof.
  intros h Q n r q. rewrite walk_app. destruct (walk h r Q) as [p|] eqn:E; [|discriminate]. simpl.
  destruct (get h p) as [nd|] eqn:Ep; [|discriminate].
  destruct (grep h (ndowns nd) n) as [c|] eqn:Ec; [|discriminate]. intros Eq; inversion Eq; subst. eauto.
Qed.

(* A node has one path. *)
Lemma walk_inj : forall (h : heap) r, Inv h -> r < length h -> forall Q1 Q2 p,
  walk h r Q1 = Some p -> walk h r Q2 = Some p -> Q1 = Q2.
Proof.
  intros h r HI Hr Q1. induction Q1 as [|n1 Q1 IH] using rev_ind; intros Q2 p W1 W2.
  - destruct Q2 as [|n2 Q2] using rev_ind; [reflexivity|]. inversion W1; subst.
    destruct (walk_snoc_inv _ _ _ _ _ W2) as [q [nd [Wq [Eq Ec]]]].
    destruct (child_lt _ _ _ _ _ HI Eq Ec) as [_ [H1 _]]. destruct (walk_lt _ _ _ _ HI Hr Wq). lia.
  - destruct (walk_snoc_inv _ _ _ _ _ W1) as [q1 [nd1 [Wq1 [Eq1 Ec1]]]].
    destruct Q2 as [|n2 Q2 _] using rev_ind.
    { inversion W2; subst. destruct (child_lt _ _ _ _ _ HI Eq1 Ec1) as [_ [H1 _]].
      destruct (walk_lt _ _ _ _ HI Hr Wq1). lia. }
    destruct (walk_snoc_inv _ _ _ _ _ W2) as [q2 [nd2 [Wq2 [Eq2 Ec2]]]].
    destruct (child_lt _ _ _ _ _ HI Eq1 Ec1) as [_ [_ [_ [cd1 [G1 [U1 M1]]]]]].
    destruct (child_lt _ _ _ _ _ HI Eq2 Ec2) as [_ [_ [_ [cd2 [G2 [U2 M2]]]]]].
    assert (cd1 = cd2) by congruence. subst cd2. assert (q1 = q2) by congruence. subst q2.
    rewrite (IH Q2 q1 Wq1 Wq2). congruence.
Qed.

Lemma add_node_spec : forall (h : heap) p n, Inv h -> p < length h ->
  exists h' c, add_node h p n = Some (h', c) /\ Inv h' /\ p < c /\ c < length h' /\
    grows (fun _ _ => True) h h' /\ walk h' p [n] = Some c /\
    (forall r Q q, r < length h -> walk h' r Q = Some q -> q < length h -> walk h r Q = Some q) /\
    (forall q nd, get h' q = Some nd -> length h <= q -> ndata nd = []).
Proof.
  intros h p n HI Hp.
  destruct (add_node_ok h (spec_of h) p n HI (spec_of_Rel h) Hp) as [h' [c [Ea [_ [HI' [_ [Hc Hl]]]]]]].
  destruct (get_ex h p Hp) as [nd E]. exists h', c. split; [exact Ea|]. split; [exact HI'|].
  unfold add_node in Ea. rewrite E in Ea. destruct (grep h (ndowns nd) n) as [c0|] eqn:Ec.
  - inversion Ea; subst h' c0; clear Ea. destruct (child_lt h p nd n c HI E Ec) as [_ [H1 [H2 _]]].
    split; [exact H1|]. split; [exact H2|]. split; [apply grows_refl|].
    split; [simpl; rewrite E, Ec; reflexivity|]. split; [auto|].
    intros q qd Eq Hq. apply get_lt in Eq. lia.
  - unfold new_tree in Ea. inversion Ea as [[Eh Ecc]]. clear Ea.
    set (pn := mkNode (nname nd) (ndata nd) (nup nd) (ndowns nd ++ [length h])) in *.
    set (cn := mkNode n [] (Some p) [] : node V) in *.
    assert (Hg : forall q, get h' q = if Nat.eq_dec q (length h) then Some cn
                           else if Nat.eq_dec q p then Some pn else get h q).
    { intros q. rewrite <- Eh. rewrite get_set by (rewrite length_set_nth, app_length; simpl; lia).
      destruct (Nat.eq_dec q (length h)) as [Hq|Hq]; [reflexivity|].
      rewrite get_set by (rewrite app_length; simpl; lia).
      destruct (Nat.eq_dec q p) as [Hq'|Hq']; [reflexivity|].
      rewrite get_snoc. destruct (Nat.eq_dec q (length h)); [contradiction|reflexivity]. }
    rewrite Eh. subst c.
    assert (Hkeep : forall ds m d, (forall x, In x ds -> exists xd, get h x = Some xd) ->
              grep h ds m = Some d -> grep h' ds m = Some d).
    { induction ds as [|x ds IHds]; intros m d Hall; simpl; [discriminate|].
      destruct (Hall x (or_introl eq_refl)) as [xd Ex]. rewrite Ex.
      assert (Hx : exists xd', get h' x = Some xd' /\ nname xd' = nname xd).
      { rewrite Hg. pose proof (get_lt _ _ _ Ex). destruct (Nat.eq_dec x (length h)); [lia|].
        destruct (Nat.eq_dec x p) as [->|]; [|eauto]. exists pn. split; [reflexivity|].
        replace xd with nd by congruence. reflexivity. }
      destruct Hx as [xd' [Ex' En]]. rewrite Ex', En. destruct (string_dec (nname xd) m); [auto|].
      apply IHds. intros y Hy; apply Hall; right; exact Hy. }
    assert (Hlost : forall ds m d, (forall x, In x ds -> exists xd, get h x = Some xd) ->
              grep h' ds m = Some d -> grep h ds m = Some d).
    { induction ds as [|x ds IHds]; intros m d Hall; simpl; [discriminate|].
      destruct (Hall x (or_introl eq_refl)) as [xd Ex]. rewrite Ex.
      assert (Hx : exists xd', get h' x = Some xd' /\ nname xd' = nname xd).
      { rewrite Hg. pose proof (get_lt _ _ _ Ex). destruct (Nat.eq_dec x (length h)); [lia|].
        destruct (Nat.eq_dec x p) as [->|]; [|eauto]. exists pn. split; [reflexivity|].
        replace xd with nd by congruence. reflexivity. }
      destruct Hx as [xd' [Ex' En]]. rewrite Ex', En. destruct (string_dec (nname xd) m); [auto|].
      apply IHds. intros y Hy; apply Hall; right; exact Hy. }
    assert (Hkids : forall q qd, get h q = Some qd -> forall x, In x (ndowns qd) -> exists xd, get h x = Some xd).
    { intros q qd Eq x Hx. destruct (HI q qd Eq) as [Hcc _]. destruct (Hcc x Hx) as [_ [xd [Ex _]]]. eauto. }
    assert (Happ : forall ds ds' m, grep h' (ds ++ ds') m =
              match grep h' ds m with Some d => Some d | None => grep h' ds' m end).
    { induction ds as [|x ds IHds]; intros ds' m; simpl; [reflexivity|].
      destruct (get h' x) as [xd|]; [destruct (string_dec (nname xd) m)|]; auto. }
    assert (Hnone : grep h' (ndowns nd) n = None).
    { destruct (grep h' (ndowns nd) n) as [d|] eqn:Ed; [|reflexivity].
      apply Hlost in Ed; [congruence|]. apply (Hkids p nd E). }
    split; [lia|]. split; [exact Hc|]. split.
    { split; [exact Hl|]. intros q qd Eq. rewrite Hg. pose proof (get_lt _ _ _ Eq).
      destruct (Nat.eq_dec q (length h)); [lia|]. destruct (Nat.eq_dec q p) as [->|Hqp].
      - exists pn. replace qd with nd by congruence. repeat split. intros m d Ed. unfold pn; cbn [ndowns].
        rewrite Happ, (Hkeep _ _ _ (Hkids p nd E) Ed). reflexivity.
      - exists qd. repeat split; [exact Eq|]. intros m d Ed. apply Hkeep; [apply (Hkids q qd Eq)|exact Ed]. }
    assert (Hpe : get h' p = Some pn).
    { rewrite Hg. destruct (Nat.eq_dec p (length h)); [lia|].
      destruct (Nat.eq_dec p p); [reflexivity|contradiction]. }
    assert (Hce : get h' (length h) = Some cn).
    { rewrite Hg. destruct (Nat.eq_dec (length h) (length h)); [reflexivity|contradiction]. }
    split.
    { simpl. rewrite Hpe. unfold pn; cbn [ndowns]. rewrite Happ, Hnone. simpl. rewrite Hce. unfold cn at 1; simpl.
      destruct (string_dec n n); [reflexivity|contradiction]. }
    split.
    + intros r Q. revert r. induction Q as [|m Q IH]; intros r q Hr; simpl; [auto|].
      rewrite Hg. destruct (Nat.eq_dec r (length h)); [lia|]. destruct (Nat.eq_dec r p) as [->|Hrp].
      * unfold pn; cbn [ndowns]. rewrite Happ, E. destruct (grep h' (ndowns nd) m) as [d|] eqn:Ed.
        { apply Hlost in Ed; [|apply (Hkids p nd E)]. rewrite Ed. intros W Hq. apply IH; auto.
          apply (child_lt h p nd m d HI E Ed). }
        simpl. rewrite Hce. unfold cn at 1; simpl. destruct (string_dec n m); [|discriminate].
        destruct Q as [|m' Q']; simpl; [intros W Hq; inversion W; lia|].
        rewrite Hce. simpl. discriminate.
      * destruct (get h r) as [rd|] eqn:Er; [|discriminate].
        destruct (grep h' (ndowns rd) m) as [d|] eqn:Ed; [|discriminate].
        apply Hlost in Ed; [|apply (Hkids r rd Er)]. rewrite Ed. intros W Hq. apply IH; auto.
        apply (child_lt h r rd m d HI Er Ed).
    + intros q qd Eq Hq. rewrite Hg in Eq. destruct (Nat.eq_dec q (length h)); [inversion Eq; reflexivity|].
      destruct (Nat.eq_dec q p); [lia|]. apply get_lt in Eq. lia.
Qed.

(* ----- adding an item ----- *)

Lemma add_item_spec : forall (h : heap) p k v, Inv h -> p < length h ->
  exists h', add_item h p k v = Some h' /\ Inv h' /\ length h' = length h /\
    (forall q nd, get h q = Some nd -> exists nd', get h' q = Some nd' /\ nname nd' = nname nd /\
       ndowns nd' = ndowns nd /\ ndata nd' = if Nat.eq_dec q p then insert k v (ndata nd) else ndata nd) /\
    (forall ds n, grep h' ds n = grep h ds n).
Proof.
  intros h p k v HI Hp. destruct (get_ex h p Hp) as [nd E]. unfold add_item. rewrite E.
  eexists. split; [reflexivity|].
  assert (Hset : Inv (set_nth p (mkNode (nname nd) (insert k v (ndata nd)) (nup nd) (ndowns nd)) h)).
  { apply (set_ok h (spec_of h) p nd (insert k v (ndata nd)) (ndowns nd) (named h (ndowns nd)) HI
             (spec_of_Rel h) E (fun c Hc => Hc) eq_refl).
    - apply (HI p nd E).
    - apply NoDup_keys_insert. apply (HI p nd E). }
  split; [exact Hset|]. split; [apply length_set_nth|].
  assert (Hg : forall q qd, get h q = Some qd -> exists nd',
             get (set_nth p (mkNode (nname nd) (insert k v (ndata nd)) (nup nd) (ndowns nd)) h) q = Some nd' /\
             nname nd' = nname qd /\ ndowns nd' = ndowns qd /\
             ndata nd' = if Nat.eq_dec q p then insert k v (ndata qd) else ndata qd).
  { intros q qd Eq. rewrite get_set by exact Hp. destruct (Nat.eq_dec q p) as [->|].
    - replace qd with nd by congruence. eexists; split; [reflexivity|]. auto.
    - eauto. }
  split; [exact Hg|]. induction ds as [|d ds IH]; intros n; simpl; [reflexivity|].
  rewrite get_set by exact Hp. destruct (Nat.eq_dec d p) as [->|].
  - rewrite E. simpl. rewrite IH. reflexivity.
  - rewrite IH. reflexivity.
Qed.

Lemma add_item_walk : forall (h : heap) p k v h' r Q, Inv h -> p < length h -> add_item h p k v = Some h' ->
  r < length h -> walk h' r Q = walk h r Q.
Proof.
  intros h p k v h' r Q HI Hp Ea Hr.
  destruct (add_item_spec h p k v HI Hp) as [h2 [E2 [HI2 [Hl [Hg Hgrep]]]]].
  rewrite Ea in E2; inversion E2; subst h2. revert r Hr. induction Q as [|n Q IH]; intros r Hr; simpl; [reflexivity|].
  destruct (get_ex h r Hr) as [nd E]. destruct (Hg r nd E) as [nd' [E' [_ [Ed _]]]]. rewrite E, E', Ed, Hgrep.
  destruct (grep h (ndowns nd) n) as [c|] eqn:Ec; [|reflexivity].
  apply IH. apply (child_lt h r nd n c HI E Ec).
Qed.

Lemma add_item_grows : forall (ok : nat -> string -> Prop) (h : heap) p k v h', Inv h -> p < length h ->
  add_item h p k v = Some h' -> ~ ok p k -> grows ok h h'.
Proof.
  intros ok h p k v h' HI Hp Ea Hok.
  destruct (add_item_spec h p k v HI Hp) as [h2 [E2 [HI2 [Hl [Hg Hgrep]]]]].
  rewrite Ea in E2; inversion E2; subst h2. split; [lia|]. intros q nd E.
  destruct (Hg q nd E) as [nd' [E' [En [Ed Edat]]]]. exists nd'. repeat split; auto.
  - intros k0 Hk0. rewrite Edat. destruct (Nat.eq_dec q p) as [->|]; [|reflexivity].
    apply lookup_insert_ne. intros ->. contradiction.
  - intros n c Ec. rewrite Ed, Hgrep. exact Ec.
Qed.

(* ----- where items are ----- *)

(* Every item of the tree below r is at a place that A allows. *)
Definition only (A : list string -> string -> Prop) (h : heap) (r : nat) : Prop :=
  forall Q p nd k, walk h r Q = Some p -> get h p = Some nd -> In k (keys (ndata nd)) -> A Q k.

Record good (A : list string -> string -> Prop) (h : heap) (r : nat) : Prop := {
  g_inv : Inv h;
  g_root : exists nd, get h r = Some nd /\ nname nd = "var";
  g_only : only A h r }.

Lemma good_lt : forall A h r, good A h r -> r < length h.
Proof. intros A h r G. destruct (g_root A h r G) as [nd [E _]]. eapply get_lt; exact E. Qed.

Lemma good_node : forall A h r P p n, good A h r -> walk h r P = Some p ->
  exists h' c, add_node h p n = Some (h', c) /\ good A h' r /\ p < c /\
    grows (fun _ _ => True) h h' /\ walk h' r (P ++ [n]) = Some c.
Proof.
  intros A h r P p n [HI Hroot Ho] W.
  assert (Hr : r < length h) by (destruct Hroot as [nd [E _]]; eapply get_lt; exact E).
  destruct (walk_lt h P r p HI Hr W) as [_ Hp].
  destruct (add_node_spec h p n HI Hp) as [h' [c [Ea [HI' [Hpc [Hc [G [Wc [Wold Hnew]]]]]]]]].
  exists h', c. split; [exact Ea|]. split; [|split; [exact Hpc|]].
  - split; [exact HI'| |].
    + destruct Hroot as [nd [E En]]. destruct (proj2 G r nd E) as [nd' [E' [En' _]]]. exists nd'. split; congruence.
    + intros Q q nd k Wq Eq Hk. destruct (Nat.lt_ge_cases q (length h)) as [Hq|Hq].
      * pose proof (Wold r Q q Hr Wq Hq) as Wq'. destruct (get_ex h q Hq) as [nd0 E0].
        destruct (proj2 G q nd0 E0) as [nd' [E' [_ [Ed _]]]]. replace nd' with nd in * by congruence.
        apply (Ho Q q nd0 k Wq' E0). unfold keys in *. apply lookup_Some_key.
        apply lookup_Some_key in Hk. destruct Hk as [x Hx]. exists x. rewrite <- (Ed k I). exact Hx.
      * rewrite (Hnew q nd Eq Hq) in Hk. destruct Hk.
  - split; [exact G|]. rewrite walk_app, (grows_walk _ _ _ _ _ _ G W). exact Wc.
Qed.

Lemma good_item : forall A (ok : nat -> string -> Prop) h r P p k v, good A h r -> walk h r P = Some p ->
  A P k -> ~ ok p k ->
  exists h', add_item h p k v = Some h' /\ good A h' r /\ grows ok h h' /\
    exists nd', get h' p = Some nd' /\ lookup k (ndata nd') = Some v.
Proof.
  intros A ok h r P p k v G W HA Hok. pose proof (good_lt A h r G) as Hr. destruct G as [HI Hroot Ho].
  destruct (walk_lt h P r p HI Hr W) as [_ Hp].
  destruct (add_item_spec h p k v HI Hp) as [h' [Ea [HI' [Hl [Hg Hgrep]]]]].
  exists h'. split; [exact Ea|]. split; [split; [exact HI'| |]|].
  - destruct Hroot as [nd [E En]]. destruct (Hg r nd E) as [nd' [E' [En' _]]]. exists nd'. split; congruence.
  - intros Q q nd k0 Wq Eq Hk. rewrite (add_item_walk h p k v h' r Q HI Hp Ea Hr) in Wq.
    destruct (walk_lt h Q r q HI Hr Wq) as [_ Hq]. destruct (get_ex h q Hq) as [nd0 E0].
    destruct (Hg q nd0 E0) as [nd' [E' [_ [_ Ed]]]]. replace nd' with nd in * by congruence.
    rewrite Ed in Hk. destruct (Nat.eq_dec q p) as [->|].
    + apply lookup_Some_key in Hk. destruct Hk as [x Hx]. rewrite lookup_insert in Hx.
      destruct (eq_dec k0 k) as [->|].
      * rewrite (walk_inj h r HI Hr Q P p Wq W). exact HA.
      * apply (Ho Q p nd0 k0 Wq E0). apply lookup_Some_key. eauto.
    + apply (Ho Q q nd0 k0 Wq E0 Hk).
  - split; [apply (add_item_grows ok h p k v h' HI Hp Ea Hok)|].
    destruct (get_ex h p Hp) as [nd E]. destruct (Hg p nd E) as [nd' [E' [_ [_ Ed]]]]. exists nd'. split; [exact E'|].
    rewrite Ed. destruct (Nat.eq_dec p p); [apply lookup_insert_eq|contradiction].
Qed.

(* ----- what is visible ----- *)

(* Going from node p along the names, past nodes and to an item, using only items that ok
   allows. *)
Inductive vis (ok : nat -> string -> Prop) (h : heap) : nat -> list string -> V -> Prop :=
| vi_item : forall p nd k v, get h p = Some nd -> k <> "var" -> ok p k -> lookup k (ndata nd) = Some v ->
    vis ok h p [k] v
| vi_down : forall p nd n c path v, get h p = Some nd -> n <> "var" -> ok p n -> lookup n (ndata nd) = None ->
    grep h (ndowns nd) n = Some c -> vis ok h c path v -> vis ok h p (n :: path) v.

Lemma vis_grows : forall ok h h' p path v, grows ok h h' -> vis ok h p path v -> vis ok h' p path v.
Proof.
  intros ok h h' p path v G Hv. induction Hv as [p nd k v E Hk Hok El|p nd n c path v E Hn Hok El Ec Hv IH].
  - destruct (proj2 G p nd E) as [nd' [E' [_ [D _]]]]. eapply vi_item; eauto. rewrite D; auto.
  - destruct (proj2 G p nd E) as [nd' [E' [_ [D C]]]]. eapply vi_down; eauto. rewrite D; auto.
Qed.

Lemma vis_weaken : forall (ok ok' : nat -> string -> Prop) h p path v, (forall q k, ok q k -> ok' q k) ->
  vis ok h p path v -> vis ok' h p path v.
Proof.
  intros ok ok' h p path v Hw Hv. induction Hv; [eapply vi_item|eapply vi_down]; eauto.
Qed.

(* An item at the end of a path whose names hide nothing. *)
Lemma vis_path : forall A h r, good A h r -> forall (ok : nat -> string -> Prop) p nd k v,
  get h p = Some nd -> k <> "var" -> lookup k (ndata nd) = Some v ->
  (forall q n, q <= p -> ok q n) -> forall P' P q, walk h r P' = Some q -> walk h q P = Some p ->
  (forall Q n rest, P' ++ P = Q ++ n :: rest -> ~ A Q n) -> ~ In "var" (P' ++ P) ->
  vis ok h q (P ++ [k]) v.
Proof.
  intros A h r G ok p nd k v E Hk El Hok P' P. revert P'.
  induction P as [|n P IH]; intros P' q Wr W Hfree Hvar.
  - simpl in W. inversion W; subst q. eapply vi_item; eauto.
  - simpl in W. destruct (get h q) as [qd|] eqn:Eq; [|discriminate].
    destruct (grep h (ndowns qd) n) as [c|] eqn:Ec; [|discriminate].
    assert (Hlt : q <= p).
    { destruct (child_lt h q qd n c (g_inv _ _ _ G) Eq Ec) as [_ [H1 [H2 _]]].
      destruct (walk_lt h P c p (g_inv _ _ _ G) H2 W). lia. }
    apply (vi_down ok h q qd n c (P ++ [k]) v Eq).
    + intros ->. apply Hvar. apply in_or_app. right; left; reflexivity.
    + apply Hok; exact Hlt.
    + destruct (lookup n (ndata qd)) as [x|] eqn:Ex; [|reflexivity]. exfalso.
      apply (Hfree P' n P eq_refl). apply (g_only _ _ _ G P' q qd n Wr Eq). apply lookup_Some_key. eauto.
    + exact Ec.
    + apply (IH (P' ++ [n]) c).
      * rewrite walk_app, Wr. simpl. rewrite Eq, Ec. reflexivity.
      * exact W.
      * intros Q m rest EQ. apply (Hfree Q m rest). rewrite <- EQ, <- app_assoc. reflexivity.
      * rewrite <- app_assoc. exact Hvar.
Qed.

(* ----- the tree as variables ----- *)

Lemma unfold_shape : forall fuel (h : heap) p t nd, unfold_tree fuel h p = Some t -> get h p = Some nd ->
  tname t = nname nd /\ tdata t = ndata nd /\
  (forall d, In d (ndowns nd) -> exists f td, In td (tdowns t) /\ unfold_tree f h d = Some td).
Proof.
  intros fuel h p t nd Hu E. destruct fuel as [|f]; [discriminate|]. simpl in Hu. rewrite E in Hu.
  match type of Hu with match ?x with _ => _ end = _ => destruct x as [ts|] eqn:Ego; [|discriminate] end.
  inversion Hu; subst t. simpl. split; [reflexivity|]. split; [reflexivity|].
  clear Hu E. revert ts Ego. generalize (ndowns nd) as ds.
  induction ds as [|x ds IH]; intros ts Ego d Hd; [destruct Hd|].
  destruct (unfold_tree f h x) as [tx|] eqn:Ex; [|discriminate].
  match type of Ego with match ?g with _ => _ end = _ => destruct g as [tts|] eqn:Eg; [|discriminate] end.
  inversion Ego; subst ts. destruct Hd as [<-|Hd].
  - exists f, tx. split; [left; reflexivity|exact Ex].
  - destruct (IH tts eq_refl d Hd) as [f' [td [Hin Htd]]]. exists f', td. split; [right; exact Hin|exact Htd].
Qed.

Lemma vis_resolves : forall ok (h : heap) p path v, Inv h -> vis ok h p path v -> forall self fuel t,
  unfold_tree fuel h p = Some t -> resolves self t path v.
Proof.
  intros ok h p path v HI Hv. induction Hv as [p nd k v E Hk Hok El|p nd n c path v E Hn Hok El Ec Hv IH];
    intros self fuel t Hu.
  - destruct (unfold_shape _ _ _ _ _ Hu E) as [_ [Ed _]]. apply res_item; [exact Hk|]. rewrite Ed. exact El.
  - destruct (unfold_shape _ _ _ _ _ Hu E) as [_ [Ed Hdown]].
    destruct (child_lt h p nd n c HI E Ec) as [Hin [_ [_ [cd [Ecd [_ Hname]]]]]].
    destruct (Hdown c Hin) as [f [tc [Htc Huc]]].
    destruct (unfold_shape _ _ _ _ _ Huc Ecd) as [Etn _].
    replace n with (tname tc) by congruence. apply res_child; [exact Htc| | |].
    + right. rewrite Ed. replace (tname tc) with n by congruence. exact El.
    + intros [_ [_ Hv']]. apply Hn. congruence.
    + apply (IH true f). exact Huc.
Qed.

Lemma unfold_root : forall A (h : heap) r, good A h r -> exists t, unfold_tree (length h) h r = Some t /\ wf t /\
  tname t = "var".
Proof.
  intros A h r G. destruct (unfold_total (length h) h r (g_inv _ _ _ G) (good_lt _ _ _ G)) as [t [E [Hw _]]]; [lia|].
  exists t. split; [exact E|]. split; [exact Hw|]. destruct (g_root _ _ _ G) as [nd [En Hn]].
  destruct (unfold_shape _ _ _ _ _ E En) as [Hname _]. congruence.
Qed.
End P.
