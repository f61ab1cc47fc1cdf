(* Proofs for VarModel.v: decoding a body into maps and lists gives what VarSpec.v says,
   whatever the order of the loops. *)

From Verif Require Import Base CtyModel HclModel TreeModel TreeSpec TreeProofs VarModel VarSpec VarTree VarProofs VarGroup.

Section U.
Variable norm : string -> string.
Variable to_text : CtyModel.cval -> result string.
Variable binary : string -> CtyModel.cval -> CtyModel.cval -> result CtyModel.cval.
Variable fs : funcs.
Variable root : option nat.
Notation expr_to_native := (expr_to_native norm to_text binary root fs).
Notation tuple_into := (tuple_into norm to_text binary root fs).
Notation obj_into := (obj_into norm to_text binary root fs).

Lemma tuple_unfold_any : forall h p key l, expr_to_native h p key (VTuple l) =
  do hc <- node_of (add_node h p key);
  do u <- tuple_into (fst hc) (snd hc) 0 l;
  Ok (fst u, list_of (snd u)).
Proof.
  intros h p key l. cbn [VarModel.expr_to_native]. destruct (node_of (add_node h p key)) as [[h1 c]|m|m]; try reflexivity.
  cbn [bindr fst snd]. f_equal. generalize 0 as i. revert h1. induction l as [|e l IH]; intros h1 i; [reflexivity|].
  cbn [VarModel.tuple_into]. destruct (expr_to_native h1 c (index_name i) e) as [[h2 x]|m|m]; try reflexivity.
  cbn [bindr fst snd]. rewrite IH. reflexivity.
Qed.

Lemma obj_unfold_any : forall h p key m, expr_to_native h p key (VObj m) =
  do hc <- node_of (add_node h p key);
  do u <- obj_into (fst hc) (snd hc) m;
  Ok (fst u, NMap (fold_left (fun h kv => insert (fst kv) (snd kv) h) (snd u) [])).
Proof.
  intros h p key m. cbn [VarModel.expr_to_native]. destruct (node_of (add_node h p key)) as [[h1 c]|e|e]; try reflexivity.
  cbn [bindr fst snd]. f_equal. revert h1. induction m as [|[k e] m IH]; intros h1; [reflexivity|].
  cbn [VarModel.obj_into]. destruct (eval to_text binary None None k) as [kv|s|s]; try reflexivity. cbn [bindr].
  destruct (as_string kv) as [kt|s|s]; try reflexivity. cbn [bindr].
  destruct (expr_to_native h1 c kt e) as [[h2 x]|s|s]; try reflexivity.
  cbn [bindr fst snd]. rewrite IH. reflexivity.
Qed.

End U.

Section B.
Variable norm : string -> string.
Variable to_text : CtyModel.cval -> result string.
Variable binary : string -> CtyModel.cval -> CtyModel.cval -> result CtyModel.cval.
Variable fs : funcs.
Variable r : nat.
Variable A : list string -> string -> Prop.
Notation theap := (heap CtyModel.cval).
Notation expr_to_native := (expr_to_native norm to_text binary (Some r) fs).
Notation tuple_into := (tuple_into norm to_text binary (Some r) fs).
Notation obj_into := (obj_into norm to_text binary (Some r) fs).
Notation means := (means norm to_text binary fs).
Notation gives := (gives norm to_text binary fs).
Notation all_give := (all_give norm to_text binary fs).

(* A plain value is evaluated and stored. *)
Lemma plain_ok : forall g e v x h P p key ok, plain e = true -> means g Whole e v -> cty_to_native v = Ok x ->
  good A h r -> walk h r P = Some p -> sees ok h r g -> A P key -> ~ ok p key ->
  exists h', expr_to_native h p key e = Ok (h', x) /\ good A h' r /\ grows ok h h' /\
    exists nd, get h' p = Some nd /\ lookup key (ndata nd) = Some v.
Proof.
  intros g e v x h P p key ok Hp Hm Hx G Hw Hs HA Hok.
  pose proof (eval_at_means norm to_text binary A ok h r g fs e v G Hs Hm) as Ev.
  destruct (good_item A ok h r P p key v G Hw HA Hok) as [h' [Ei [G' [Hg Hl]]]].
  exists h'. split; [|auto].
  destruct e; try discriminate; cbn [VarModel.expr_to_native]; try rewrite Ev; cbn [bindr]; try rewrite Ei;
    cbn [node_of bindr]; try rewrite Hx; try reflexivity.
  simpl in Hp. destruct (String.eqb f "null"); [discriminate|reflexivity].
Qed.

(* What is shown of every expression. *)
Definition elem (g : env) (e : vexpr) (x : native) : Prop := forall h P p key ok,
  good A h r -> walk h r P = Some p -> sees ok h r g ->
  (forall Q k', expr_item P key e Q k' -> A Q k') ->
  (forall q k, ok q k -> q < p \/ (q = p /\ (plain e = true -> k <> key))) ->
  exists h', expr_to_native h p key e = Ok (h', x) /\ good A h' r /\ grows ok h h'.

Lemma sees_grows : forall ok h h' g, grows ok h h' -> sees ok h r g -> sees ok h' r g.
Proof. intros ok h h' g Hg Hs names x Hin. eapply vis_grows; [exact Hg|]. apply Hs. exact Hin. Qed.
Lemma sees_weaken : forall (ok ok' : nat -> string -> Prop) h g, (forall q k, ok q k -> ok' q k) ->
  sees ok h r g -> sees ok' h r g.
Proof. intros ok ok' h g Hi Hs names x Hin. eapply vis_weaken; [exact Hi|]. apply Hs. exact Hin. Qed.

Lemma tuple_into_ok : forall g l xs, Forall2 (elem g) l xs -> forall h P c i ok,
  good A h r -> walk h r P = Some c -> sees ok h r g ->
  (forall j e Q k', nth_error l j = Some e -> expr_item P (index_name (i + j)) e Q k' -> A Q k') ->
  (forall q k j e, ok q k -> nth_error l j = Some e ->
     q < c \/ (q = c /\ (plain e = true -> k <> index_name (i + j)))) ->
  exists h', tuple_into h c i l = Ok (h', xs) /\ good A h' r /\ grows ok h h'.
Proof.
  intros g l xs H. induction H as [|e x l xs He Hl IH]; intros h P c i ok G Hw Hs HA Hok.
  - exists h. split; [reflexivity|]. split; [exact G|apply grows_refl].
  - cbn [VarModel.tuple_into].
    destruct (He h P c (index_name i) ok G Hw Hs) as [h1 [E1 [G1 R1]]].
    { intros Q k' Hi. apply (HA 0 e Q k' eq_refl). rewrite Nat.add_0_r. exact Hi. }
    { intros q k Hq. pose proof (Hok q k 0 e Hq eq_refl) as H0. rewrite Nat.add_0_r in H0. exact H0. }
    rewrite E1. cbn [bindr fst snd].
    destruct (IH h1 P c (S i) ok G1 (grows_walk _ _ _ _ _ _ R1 Hw) (sees_grows _ _ _ _ R1 Hs)) as [h2 [E2 [G2 R2]]].
    { intros j e' Q k' En Hi. apply (HA (S j) e' Q k' En). rewrite Nat.add_succ_r. exact Hi. }
    { intros q k j e' Hq En. pose proof (Hok q k (S j) e' Hq En) as H0. rewrite Nat.add_succ_r in H0. exact H0. }
    rewrite E2. exists h2. split; [reflexivity|]. split; [exact G2|]. eapply grows_trans; eauto.
Qed.

Lemma obj_into_ok : forall g ks es xs, List.length ks = List.length es -> Forall2 (elem g) es xs -> forall h P c ok,
  good A h r -> walk h r P = Some c -> sees ok h r g ->
  (forall n e Q k', In (VStr n, e) (combine (map VStr ks) es) -> expr_item P n e Q k' -> A Q k') ->
  (forall q k n e, ok q k -> In (VStr n, e) (combine (map VStr ks) es) -> q < c \/ (q = c /\ (plain e = true -> k <> n))) ->
  exists h', obj_into h c (combine (map VStr ks) es) = Ok (h', combine ks xs) /\ good A h' r /\ grows ok h h'.
Proof.
  intros g ks es xs El H. revert ks El. induction H as [|e x es xs He Hl IH]; intros [|n ks] El h P c ok G Hw Hs HA Hok;
    try discriminate.
  - exists h. split; [reflexivity|]. split; [exact G|apply grows_refl].
  - cbn [map combine VarModel.obj_into VarModel.eval as_string bindr].
    destruct (He h P c n ok G Hw Hs) as [h1 [E1 [G1 R1]]].
    { intros Q k' Hi. apply (HA n e Q k'); [left; reflexivity|exact Hi]. }
    { intros q k Hq. apply (Hok q k n e); [exact Hq|left; reflexivity]. }
    rewrite E1. cbn [bindr fst snd].
    destruct (IH ks ltac:(simpl in El; congruence) h1 P c ok G1 (grows_walk _ _ _ _ _ _ R1 Hw)
                (sees_grows _ _ _ _ R1 Hs)) as [h2 [E2 [G2 R2]]].
    { intros n' e' Q k' Hin Hi. apply (HA n' e' Q k'); [right; exact Hin|exact Hi]. }
    { intros q k n' e' Hq Hn. apply (Hok q k n' e'); [exact Hq|right; exact Hn]. }
    rewrite E2. exists h2. split; [reflexivity|]. split; [exact G2|]. eapply grows_trans; eauto.
Qed.

Scheme gives_ind2 := Minimality for VarSpec.gives Sort Prop
  with all_give_ind2 := Minimality for VarSpec.all_give Sort Prop.
Combined Scheme gives_all_ind from gives_ind2, all_give_ind2.

Lemma all_give_length : forall g l xs, all_give g l xs -> List.length l = List.length xs.
Proof. intros g l xs H. induction H; simpl; congruence. Qed.

Lemma gives_elem : forall g, (forall e x, gives g e x -> elem g e x) /\
  (forall l xs, all_give g l xs -> Forall2 (elem g) l xs).
Proof.
  intros g. apply (gives_all_ind norm to_text binary fs g (fun e x => elem g e x) (fun l xs => Forall2 (elem g) l xs)).
  - intros l xs _ IH h P p key ok G Hw Hs HA Hok. rewrite tuple_unfold_any.
    destruct (good_node A h r P p key G Hw) as [h1 [c [En [G1 [Hlt [R1 Hw1]]]]]]. rewrite En. cbn [node_of bindr fst snd].
    assert (R1' : grows ok h h1) by (eapply grows_weaken; [|exact R1]; simpl; auto).
    destruct (tuple_into_ok g l xs IH h1 (P ++ [key]) c 0 ok G1 Hw1 (sees_grows _ _ _ _ R1' Hs)) as [h2 [E2 [G2 R2]]].
    { intros j e Q k' Hj Hi. apply HA. eapply ei_tuple; eauto. }
    { intros q k j e Hq _. left. destruct (Hok q k Hq) as [Hlt'|[-> _]]; lia. }
    rewrite E2. exists h2. split; [reflexivity|]. split; [exact G2|]. eapply grows_trans; eauto.
  - intros ks es xs El Hn Hall IH h P p key ok G Hw Hs HA Hok. rewrite obj_unfold_any.
    destruct (good_node A h r P p key G Hw) as [h1 [c [En [G1 [Hlt [R1 Hw1]]]]]]. rewrite En. cbn [node_of bindr fst snd].
    assert (R1' : grows ok h h1) by (eapply grows_weaken; [|exact R1]; simpl; auto).
    destruct (obj_into_ok g ks es xs El IH h1 (P ++ [key]) c ok G1 Hw1 (sees_grows _ _ _ _ R1' Hs)) as [h2 [E2 [G2 R2]]].
    { intros n e Q k' Hin Hi. apply HA. eapply ei_obj; eauto. }
    { intros q k n e Hq _. left. destruct (Hok q k Hq) as [Hlt'|[-> _]]; lia. }
    rewrite E2. cbn [bindr fst snd]. exists h2. split; [|split; [exact G2|eapply grows_trans; eauto]].
    rewrite insert_fresh; [reflexivity| |intros k _ []].
    rewrite combine_keys; [exact Hn|]. rewrite El. apply (all_give_length g es xs Hall).
  - intros args h P p key ok G Hw Hs HA Hok. exists h. split; [reflexivity|]. split; [exact G|apply grows_refl].
  - intros e v x Hp Hm Hx h P p key ok G Hw Hs HA Hok.
    destruct (plain_ok g e v x h P p key ok Hp Hm Hx G Hw Hs) as [h' [E [G' [R _]]]].
    { apply HA. constructor. exact Hp. }
    { intros Hk. destruct (Hok p key Hk) as [Hlt|[_ Hne]]; [lia|apply (Hne Hp eq_refl)]. }
    exists h'. auto.
  - constructor.
  - intros e l x xs _ IHe _ IHl. constructor; assumption.
Qed.

(* ----- the attributes of a body ----- *)

Variable ord : order.
Hypothesis ord_perm : forall p site ks, Permutation ks (ord p site ks).
Notation range := (range ord).
Notation attrs_give := (attrs_give norm to_text binary fs).

Lemma attrs_give_keys : forall g P attrs xs g', attrs_give g P attrs xs g' -> keys xs = keys attrs.
Proof. intros g P attrs xs g' H. induction H; simpl; unfold keys in *; simpl; congruence. Qed.

(* For each attribute: its data, and the entry of the environment. *)
Lemma attrs_give_at : forall g P attrs xs g', attrs_give g P attrs xs g' -> NoDup (keys attrs) ->
  (forall k e, lookup k attrs = Some e -> exists x, lookup k xs = Some x /\
    ((exists v, plain e = true /\ means g Whole e v /\ cty_to_native v = Ok x /\
        (forall v', In (P ++ [k], v') g' -> v' = v)) \/
     (plain e = false /\ gives g e x /\ forall v', ~ In (P ++ [k], v') g'))) /\
  (forall names v, In (names, v) g' -> exists k, names = P ++ [k] /\ In k (keys attrs)).
Proof.
  intros g P attrs xs g' H. induction H as [|k e v x l xs g' Hp Hm Hx H IH|k e x l xs g' Hp Hg H IH]; intros Hn.
  - split; [intros k e E; discriminate|intros names v []].
  - inversion Hn as [|? ? Hk Hn']; subst. destruct (IH Hn') as [IH1 IH2]. split.
    + intros k' e' E. simpl in E. simpl. destruct (eq_dec k' k) as [->|Hne].
      * inversion E; subst e'. exists x. split; [reflexivity|]. left. exists v. repeat split; auto.
        intros v' [Hv|Hv]; [congruence|]. destruct (IH2 _ _ Hv) as [k2 [Ek Hk2]].
        apply app_inj_tail in Ek. destruct Ek as [_ <-]. contradiction.
      * destruct (IH1 k' e' E) as [x' [Ex [[v' [Hp' [Hm' [Hx' Hu]]]]|[Hp' [Hg' Hu]]]]]; exists x'; (split; [exact Ex|]).
        -- left. exists v'. repeat split; auto. intros v2 [Hv|Hv]; [|auto].
           inversion Hv as [[Hv1 Hv2]]. apply app_inj_tail in Hv1. destruct Hv1. congruence.
        -- right. repeat split; auto. intros v2 [Hv|Hv]; [|eapply Hu; eauto].
           inversion Hv as [[Hv1 Hv2]]. apply app_inj_tail in Hv1. destruct Hv1. congruence.
    + intros names v' [Hv|Hv].
      * inversion Hv; subst. exists k. split; [reflexivity|left; reflexivity].
      * destruct (IH2 _ _ Hv) as [k2 [Ek Hk2]]. exists k2. split; [exact Ek|right; exact Hk2].
  - inversion Hn as [|? ? Hk Hn']; subst. destruct (IH Hn') as [IH1 IH2]. split.
    + intros k' e' E. simpl in E. simpl. destruct (eq_dec k' k) as [->|Hne].
      * inversion E; subst e'. exists x. split; [reflexivity|]. right. repeat split; auto.
        intros v' Hv. destruct (IH2 _ _ Hv) as [k2 [Ek Hk2]].
        apply app_inj_tail in Ek. destruct Ek as [_ <-]. contradiction.
      * destruct (IH1 k' e' E) as [x' [Ex Hc]]. exists x'. split; [exact Ex|exact Hc].
    + intros names v' Hv. destruct (IH2 _ _ Hv) as [k2 [Ek Hk2]]. exists k2. split; [exact Ek|right; exact Hk2].
Qed.

(* The names a body at p adds: visible once the attributes are stored. *)
Definition stored (P : list string) (p : nat) (g' : env) (k : string) (h : theap) : Prop :=
  forall v, In (P ++ [k], v) g' -> exists nd, get h p = Some nd /\ lookup k (ndata nd) = Some v.

Lemma stored_grows : forall P p g' k ok h h', grows ok h h' -> ok p k -> stored P p g' k h -> stored P p g' k h'.
Proof.
  intros P p g' k ok h h' [_ Hg] Hok Hst v Hin. destruct (Hst v Hin) as [nd [En El]].
  destruct (Hg p nd En) as [nd' [En' [_ [Hd _]]]]. exists nd'. split; [exact En'|]. rewrite (Hd k Hok). exact El.
Qed.

Lemma attrs_ok : forall g P attrs xs g' h p ok, attrs_give g P attrs xs g' -> NoDup (keys attrs) ->
  good A h r -> walk h r P = Some p -> sees ok h r g ->
  (forall n e Q k, In (n, e) attrs -> expr_item P n e Q k -> A Q k) ->
  (forall q k, ok q k -> q < p \/ (q = p /\ ~ In k (keys attrs))) ->
  exists h', range p 0 (fun h k e => expr_to_native h p k e) attrs h = Ok (h', xs) /\ good A h' r /\
    grows (fun q k => q < p \/ (q = p /\ ~ In k (keys attrs))) h h' /\
    forall k, In k (keys attrs) -> stored P p g' k h'.
Proof.
  intros g P attrs xs g' h p ok Ha Hn G Hw Hs HA Hok.
  pose proof (attrs_give_keys _ _ _ _ _ Ha) as Hk.
  destruct (attrs_give_at _ _ _ _ _ Ha Hn) as [Hat _].
  set (ok1 := fun q k => q < p \/ (q = p /\ ~ In k (keys attrs))).
  assert (Hs1 : sees ok1 h r g) by (eapply sees_weaken; [|exact Hs]; exact Hok).
  destruct (range_ok ord ord_perm (fun h k e => expr_to_native h p k e) attrs xs
              (fun h1 => good A h1 r /\ grows ok1 h h1) (stored P p g') p 0 h Hn Hk) as [h' [E [[G' R'] Hst]]].
  - intros h1 k e El [G1 R1].
    destruct (Hat k e El) as [x [Ex Hcase]].
    assert (Hin : In (k, e) attrs) by (apply lookup_In; exact El).
    assert (Hkin : In k (keys attrs)) by (apply lookup_Some_key; exists e; exact El).
    set (ok2 := fun q k' => q < p \/ (q = p /\ k' <> k)).
    assert (H12 : forall q k', ok1 q k' -> ok2 q k').
    { intros q k' [Hq|[Hq Hnk]]; [left; exact Hq|right; split; [exact Hq|]]. intros ->. contradiction. }
    assert (Hw1 : walk h1 r P = Some p) by (eapply grows_walk; eauto).
    assert (Hs2 : sees ok2 h1 r g).
    { eapply sees_weaken; [exact H12|]. eapply sees_grows; eauto. }
    destruct Hcase as [[v [Hp [Hm [Hx Hu]]]]|[Hp [Hgv Hu]]].
    + destruct (plain_ok g e v x h1 P p k ok2 Hp Hm Hx G1 Hw1 Hs2) as [h2 [E2 [G2 [R2 Hl]]]].
      { apply (HA k e P k Hin). constructor. exact Hp. }
      { intros [Hq|[_ Hq]]; [lia|contradiction]. }
      exists h2, x. split; [exact E2|]. split; [exact Ex|]. split; [split; [exact G2|]|split].
      * eapply grows_trans; [exact R1|]. eapply grows_weaken; [exact H12|exact R2].
      * intros v' Hv'. rewrite (Hu v' Hv'). exact Hl.
      * intros k' Hne Hst. eapply stored_grows; [exact R2| |exact Hst]. right; split; [reflexivity|exact Hne].
    + destruct (proj1 (gives_elem g) e x Hgv h1 P p k ok2 G1 Hw1 Hs2) as [h2 [E2 [G2 R2]]].
      { intros Q k' Hi. apply (HA k e Q k' Hin Hi). }
      { intros q k' [Hq|[Hq Hne]]; [left; exact Hq|right; split; [exact Hq|intros _; exact Hne]]. }
      exists h2, x. split; [exact E2|]. split; [exact Ex|]. split; [split; [exact G2|]|split].
      * eapply grows_trans; [exact R1|]. eapply grows_weaken; [exact H12|exact R2].
      * intros v' Hv'. exfalso. eapply Hu; eauto.
      * intros k' Hne Hst. eapply stored_grows; [exact R2| |exact Hst]. right; split; [reflexivity|exact Hne].
  - split; [exact G|apply grows_refl].
  - exists h'. auto.
Qed.

(* After the attributes, the bodies inside see the names of this body too. *)
Lemma sees_more : forall g P g' h p, good A h r -> walk h r P = Some p ->
  (forall names v, In (names, v) g' -> exists k, names = P ++ [k] /\ k <> "var" /\ stored P p g' k h) ->
  (forall Q n rest, P = Q ++ n :: rest -> ~ A Q n) -> ~ In "var" P ->
  sees (fun q k => q < p \/ q = p) h r g -> sees (fun q k => q <= p) h r (g' ++ g).
Proof.
  intros g P g' h p G Hw Hst HP Hv Hs names x Hin. apply in_app_or in Hin. destruct Hin as [Hin|Hin].
  - destruct (Hst names x Hin) as [k [-> [Hk Hst']]]. destruct (Hst' x Hin) as [nd [En El]].
    apply (vis_path A h r G (fun q _ => q <= p) p nd k x En Hk El (fun q _ H => H) [] P r); [reflexivity|exact Hw|exact HP|exact Hv].
  - eapply vis_weaken; [|apply Hs; exact Hin]. intros q k [Hq|Hq]; lia.
Qed.

(* ----- bodies ----- *)

Notation decode_vbody := (decode_vbody norm to_text binary (Some r) fs ord).
Notation body_gives := (body_gives norm to_text binary fs).
Notation bares_give := (bares_give norm to_text binary fs).
Notation numbered_give := (numbered_give norm to_text binary fs).
Notation maps_give := (maps_give norm to_text binary fs).
Notation labels_give := (labels_give norm to_text binary fs).
Notation map2s_give := (map2s_give norm to_text binary fs).
Notation pairs_give := (pairs_give norm to_text binary fs).

(* The values of the bodies below are among A, and no path goes through a value. *)
Definition allowed (P : list string) (b : vbody) : Prop :=
  (forall R c n e Q k, inner block_at P b R c -> In (n, e) (vb_attrs c) -> expr_item R n e Q k -> A Q k) /\
  (forall R c, inner block_at P b R c -> (forall Q k rest, A Q k -> R <> Q ++ k :: rest) /\ ~ In "var" R).
Hypothesis A_var : forall Q k, A Q k -> k <> "var".

Lemma allowed_down : forall P b R c, allowed P b -> block_at P b R c -> allowed R c.
Proof.
  intros P b R c [H1 H2] Hb. split.
  - intros R' c' n e Q k Hi. apply H1. eapply inn_down; eauto.
  - intros R' c' Hi. apply (H2 R' c'). eapply inn_down; eauto.
Qed.

(* What is shown of every body. *)
Definition decodes (g : env) (P : list string) (b : vbody) (x : native) : Prop := forall h p ok,
  good A h r -> walk h r P = Some p -> sees ok h r g -> allowed P b ->
  (forall q k, ok q k -> q < p \/ (q = p /\ ~ In k (keys (vb_attrs b)))) ->
  exists h', decode_vbody b h p = Ok (h', x) /\ good A h' r /\
    grows (fun q k => q < p \/ (q = p /\ ~ In k (keys (vb_attrs b)))) h h'.

(* The state between the blocks of the body at p, since h0. *)
Definition between (h0 : theap) (p : nat) (h : theap) : Prop := good A h r /\ grows (fun q _ => q <= p) h0 h.

Lemma between_walk : forall h0 p h P q, between h0 p h -> walk h0 r P = Some q -> walk h r P = Some q.
Proof. intros h0 p h P q [_ R] Hw. eapply grows_walk; eauto. Qed.
Lemma between_sees : forall h0 p h g, between h0 p h -> sees (fun q _ => q <= p) h0 r g -> sees (fun q _ => q <= p) h r g.
Proof. intros h0 p h g [_ R] Hs. eapply sees_grows; eauto. Qed.
Lemma between_trans : forall h0 p h1 h2, between h0 p h1 -> between h1 p h2 -> between h0 p h2.
Proof. intros h0 p h1 h2 [_ R1] [G2 R2]. split; [exact G2|]. eapply grows_trans; eauto. Qed.

(* A node below p, then a body in it. *)
Lemma body_below : forall g P b x n h c p, decodes g (P ++ [n]) b x -> good A h r -> walk h r P = Some c -> p <= c ->
  sees (fun q _ => q <= p) h r g -> allowed (P ++ [n]) b ->
  exists h1 c1 h2, add_node h c n = Some (h1, c1) /\ decode_vbody b h1 c1 = Ok (h2, x) /\ between h p h2.
Proof.
  intros g P b x n h c p Hd G Hw Hle Hs Ha.
  destruct (good_node A h r P c n G Hw) as [h1 [c1 [En [G1 [Hlt [R1 Hw1]]]]]].
  assert (R1' : grows (fun q _ => q <= p) h h1) by (eapply grows_weaken; [|exact R1]; simpl; auto).
  destruct (Hd h1 c1 (fun q _ => q <= p) G1 Hw1 (sees_grows _ _ _ _ R1' Hs) Ha) as [h2 [E2 [G2 R2]]].
  { intros q k Hq. left. lia. }
  exists h1, c1, h2. split; [exact En|]. split; [exact E2|]. split; [exact G2|].
  eapply grows_trans; [exact R1'|]. eapply grows_weaken; [|exact R2]. simpl. intros q k Hq. left. lia.
Qed.

Lemma slice_ok : forall g P l i xs, (forall j b, nth_error l j = Some b -> exists x, nth_error xs j = Some x /\
    decodes g (P ++ [index_name (i + j)]) b x /\ allowed (P ++ [index_name (i + j)]) b) ->
  List.length xs = List.length l ->
  forall h c p, good A h r -> walk h r P = Some c -> p <= c -> sees (fun q _ => q <= p) h r g ->
  exists h', slice_go h c i (map decode_vbody l) = Ok (h', xs) /\ between h p h'.
Proof.
  intros g P l. induction l as [|b l IH]; intros i xs H El h c p G Hw Hle Hs.
  - destruct xs; [|discriminate]. exists h. split; [reflexivity|]. split; [exact G|apply grows_refl].
  - destruct xs as [|x xs]; [discriminate|]. cbn [map slice_go].
    destruct (H 0 b eq_refl) as [x' [Ex [Hd Ha]]]. simpl in Ex. injection Ex as <-. rewrite Nat.add_0_r in *.
    destruct (body_below g P b x (index_name i) h c p Hd G Hw Hle Hs Ha) as [h1 [c1 [h2 [E1 [E2 B2]]]]].
    rewrite E1. cbn [node_of bindr fst snd]. rewrite E2. cbn [bindr fst snd].
    destruct (IH (S i) xs) with (h := h2) (c := c) (p := p) as [h3 [E3 B3]].
    + intros j b' En. destruct (H (S j) b' En) as [x' [Ex' [Hd' Ha']]]. exists x'.
      rewrite Nat.add_succ_r in *. auto.
    + simpl in El. congruence.
    + apply (proj1 B2).
    + eapply between_walk; eauto.
    + exact Hle.
    + eapply between_sees; eauto.
    + rewrite E3. exists h3. split; [reflexivity|]. eapply between_trans; eauto.
Qed.

(* A group of labelled bodies below p. *)
Lemma labels_ok : forall g P l xs site t, NoDup (map fst l) -> keys xs = map fst l ->
  (forall n b, In (n, b) l -> exists x, lookup n xs = Some x /\
     decodes g ((P ++ [t]) ++ [n]) b x /\ allowed ((P ++ [t]) ++ [n]) b) ->
  forall h c0 p, good A h r -> walk h r P = Some c0 -> p <= c0 -> sees (fun q _ => q <= p) h r g ->
  exists h', do_map ord c0 site h t (dlabels decode_vbody l) = Ok (h', NMap xs) /\ between h p h'.
Proof.
  intros g P l xs site t Hn Hk H h c0 p G Hw Hle Hs. unfold do_map.
  destruct (good_node A h r P c0 t G Hw) as [h1 [c [En [G1 [Hlt [R1 Hw1]]]]]].
  rewrite En. cbn [node_of bindr fst snd].
  assert (R1' : grows (fun q _ => q <= p) h h1) by (eapply grows_weaken; [|exact R1]; simpl; auto).
  assert (B1 : between h p h1) by (split; assumption).
  destruct (range_ok ord ord_perm (do_label c) (dlabels decode_vbody l) xs (between h1 p) (fun _ _ => True) c site h1)
    as [h2 [E2 [B2 _]]].
  - rewrite keys_dlabels. exact Hn.
  - rewrite keys_dlabels. exact Hk.
  - intros h3 n d El B3. apply lookup_In in El. unfold dlabels in El. apply in_map_iff in El.
    destruct El as [[n' b] [Enb Hin]]. simpl in Enb. inversion Enb; subst n' d; clear Enb.
    destruct (H n b Hin) as [x [Ex [Hd Ha]]].
    destruct (body_below g (P ++ [t]) b x n h3 c p Hd (proj1 B3) (between_walk _ _ _ _ _ B3 Hw1) ltac:(lia)
                (between_sees _ _ _ _ B3 (sees_grows _ _ _ _ R1' Hs)) Ha) as [h4 [c1 [h5 [E4 [E5 B5]]]]].
    exists h5, x. unfold do_label. rewrite E4. cbn [node_of bindr fst snd].
    split; [exact E5|]. split; [exact Ex|]. split; [|split; [exact Logic.I|auto]]. apply (between_trans _ _ _ _ B3 B5).
  - split; [exact G1|apply grows_refl].
  - rewrite E2. exists h2. split; [reflexivity|]. eapply between_trans; eauto.
Qed.

Scheme body_gives_ind2 := Minimality for VarSpec.body_gives Sort Prop
  with bares_give_ind2 := Minimality for VarSpec.bares_give Sort Prop
  with numbered_give_ind2 := Minimality for VarSpec.numbered_give Sort Prop
  with maps_give_ind2 := Minimality for VarSpec.maps_give Sort Prop
  with labels_give_ind2 := Minimality for VarSpec.labels_give Sort Prop
  with map2s_give_ind2 := Minimality for VarSpec.map2s_give Sort Prop
  with pairs_give_ind2 := Minimality for VarSpec.pairs_give Sort Prop.
Combined Scheme body_all_ind from body_gives_ind2, bares_give_ind2, numbered_give_ind2, maps_give_ind2,
  labels_give_ind2, map2s_give_ind2, pairs_give_ind2.

Definition d_bares (g : env) (P : list string) (bs : blocks) (ts : list string) (s : list (string * native)) : Prop :=
  keys s = ts /\ forall t x, NoDup ts -> lookup t s = Some x -> exists xs, x = one_or_list xs /\
    List.length xs = List.length (bare t bs) /\
    forall j b, nth_error (bare t bs) j = Some b -> exists y, nth_error xs j = Some y /\
      decodes g ((P ++ [t]) ++ [index_name j]) b y.
Definition d_numbered (g : env) (P : list string) (i : nat) (l : list vbody) (xs : list native) : Prop :=
  List.length xs = List.length l /\
  forall j b, nth_error l j = Some b -> exists y, nth_error xs j = Some y /\ decodes g (P ++ [index_name (i + j)]) b y.
Definition d_labels (g : env) (P : list string) (l : list (string * vbody)) (xs : list (string * native)) : Prop :=
  keys xs = map fst l /\
  (NoDup (map fst l) -> forall n b, In (n, b) l -> exists x, lookup n xs = Some x /\ decodes g (P ++ [n]) b x).
Definition d_maps (g : env) (P : list string) (bs : blocks) (ts : list string) (s : list (string * native)) : Prop :=
  keys s = ts /\ forall t x, NoDup ts -> lookup t s = Some x -> exists xs, x = NMap xs /\
    NoDup (map fst (labelled t bs)) /\ d_labels g (P ++ [t]) (labelled t bs) xs.
Definition d_pairs (g : env) (P : list string) (t : string) (bs : blocks) (ls : list string)
  (s : list (string * native)) : Prop :=
  keys s = ls /\ forall l x, NoDup ls -> lookup l s = Some x -> exists xs, x = NMap xs /\
    NoDup (map fst (paired t l bs)) /\ d_labels g (P ++ [l]) (paired t l bs) xs.
Definition d_map2s (g : env) (P : list string) (bs : blocks) (ts : list string) (s : list (string * native)) : Prop :=
  keys s = ts /\ forall t x, NoDup ts -> lookup t s = Some x -> exists xs, x = NMap xs /\
    d_pairs g (P ++ [t]) t bs (firsts (firsts_of t bs)) xs.

Lemma decode_unfold : forall attrs bs, decode_vbody (VBody attrs bs) =
  decode_with norm to_text binary (Some r) fs ord attrs (dblocks decode_vbody bs).
Proof.
  intros attrs bs. cbn [VarModel.decode_vbody]. f_equal. unfold dblocks.
  induction bs as [|[[t ls] b] bs IH]; [reflexivity|]. simpl. rewrite IH. reflexivity.
Qed.

Lemma nth_bare : forall P attrs bs t j b, nth_error (bare t bs) j = Some b ->
  block_at P (VBody attrs bs) ((P ++ [t]) ++ [index_name j]) b.
Proof. intros. rewrite <- app_assoc. simpl. constructor. assumption. Qed.
Lemma in_labelled : forall P attrs bs t l b, In (l, b) (labelled t bs) ->
  block_at P (VBody attrs bs) ((P ++ [t]) ++ [l]) b.
Proof. intros. rewrite <- app_assoc. simpl. constructor. assumption. Qed.
Lemma in_paired : forall P attrs bs t l1 l b, In (l, b) (paired t l1 bs) ->
  block_at P (VBody attrs bs) (((P ++ [t]) ++ [l1]) ++ [l]) b.
Proof. intros. rewrite <- !app_assoc. simpl. constructor. assumption. Qed.

Lemma NoDup_app_r : forall {T} (a b : list T), NoDup (a ++ b) -> NoDup b.
Proof. intros T a b. induction a as [|x a IH]; simpl; intros H; [exact H|]. inversion H; auto. Qed.

Lemma body_all : (forall g P b x, body_gives g P b x -> decodes g P b x) /\
  (forall g P bs ts s, bares_give g P bs ts s -> d_bares g P bs ts s) /\
  (forall g P i l xs, numbered_give g P i l xs -> d_numbered g P i l xs) /\
  (forall g P bs ts s, maps_give g P bs ts s -> d_maps g P bs ts s) /\
  (forall g P l xs, labels_give g P l xs -> d_labels g P l xs) /\
  (forall g P bs ts s, map2s_give g P bs ts s -> d_map2s g P bs ts s) /\
  (forall g P t bs ls s, pairs_give g P t bs ls s -> d_pairs g P t bs ls s).
Proof.
  apply (body_all_ind norm to_text binary fs).
  - intros g P attrs bs xs g' s m m2 Hn Hlab Ha _ [Ks Hs0] _ [Km Hm0] _ [Km2 Hm20] h p ok G Hw Hs Hal Hok.
    rewrite decode_unfold. unfold decode_with.
    assert (Hna : NoDup (keys attrs)) by (apply NoDup_app_l in Hn; exact Hn).
    destruct (attrs_ok g P attrs xs g' h p ok Ha Hna G Hw Hs) as [h1 [E1 [G1 [R1 Hst]]]].
    { intros n e Q k Hin Hi. eapply (proj1 Hal); [constructor|exact Hin|exact Hi]. }
    { exact Hok. }
    rewrite E1. cbn [bindr fst snd].
    assert (Hmany : existsb many_labels (dblocks decode_vbody bs) = false).
    { apply not_true_is_false. intros Hex. apply existsb_exists in Hex. destruct Hex as [d [Hin Hd]].
      unfold dblocks in Hin. apply in_map_iff in Hin. destruct Hin as [b [<- Hin]].
      rewrite Forall_forall in Hlab. specialize (Hlab b Hin). unfold many_labels in Hd. simpl in Hd.
      apply Nat.ltb_lt in Hd. lia. }
    rewrite Hmany.
    destruct (proj2 Hal P (VBody attrs bs) (inn_here _ _ _)) as [HP HPv].
    assert (Hw1 : walk h1 r P = Some p) by (eapply grows_walk; eauto).
    assert (Hs1 : sees (fun q _ => q <= p) h1 r (g' ++ g)).
    { apply (sees_more g P g' h1 p G1 Hw1).
      - intros names v Hin. destruct (proj2 (attrs_give_at _ _ _ _ _ Ha Hna) names v Hin) as [k [-> Hk]].
        exists k. split; [reflexivity|]. split; [|apply Hst; exact Hk].
        assert (HAk : A P k).
        { apply lookup_Some_key in Hk. destruct Hk as [e El].
          destruct (proj1 (attrs_give_at _ _ _ _ _ Ha Hna) k e El) as [x [_ [[v' [Hp _]]|[_ [_ Hu]]]]].
          - apply lookup_In in El. eapply (proj1 Hal); [constructor|exact El|]. constructor. exact Hp.
          - exfalso. eapply Hu; eauto. }
        apply (A_var P k HAk).
      - intros Q n rest EQ HA'. apply (HP Q n rest HA' EQ).
      - exact HPv.
      - eapply sees_weaken; [|eapply sees_grows; [exact R1|]; eapply sees_weaken; [exact Hok|exact Hs]].
        simpl. intros q k [Hq|[Hq _]]; auto. }
    assert (Hn0 : NoDup (types 0 bs)) by apply firsts_NoDup.
    assert (Hn1 : NoDup (types 1 bs)) by apply firsts_NoDup.
    assert (Hn2 : NoDup (types 2 bs)) by apply firsts_NoDup.
    (* blocks without labels *)
    destruct (g_slice_spec decode_vbody bs) as [Kg Lg].
    destruct (range_ok ord ord_perm (do_slice p) (g_slice (dblocks decode_vbody bs)) s (between h1 p) (fun _ _ => True) p 1 h1)
      as [h2 [E2 [B2 _]]].
    { rewrite Kg. exact Hn0. }
    { rewrite Kg. exact Ks. }
    { intros h3 t ds El B3.
      assert (Ht : In t (types 0 bs)) by (rewrite <- Kg; apply lookup_Some_key; exists ds; exact El).
      rewrite (Lg t Ht) in El. injection El as <-.
      assert (Hts : In t (keys s)) by (rewrite Ks; exact Ht). apply lookup_Some_key in Hts. destruct Hts as [x Ex].
      destruct (Hs0 t x Hn0 Ex) as [ys [-> [Ely Hys]]].
      destruct (good_node A h3 r P p t (proj1 B3) (between_walk _ _ _ _ _ B3 Hw1)) as [h4 [c [En [G4 [Hlt [R4 Hw4]]]]]].
      assert (R4' : grows (fun q _ => q <= p) h3 h4) by (eapply grows_weaken; [|exact R4]; simpl; auto).
      destruct (slice_ok (g' ++ g) (P ++ [t]) (bare t bs) 0 ys) with (h := h4) (c := c) (p := p) as [h5 [E5 B5]].
      - intros j b Hj. destruct (Hys j b Hj) as [y [Ey Hd]]. exists y. split; [exact Ey|]. split; [exact Hd|].
        eapply allowed_down; [exact Hal|]. apply nth_bare. exact Hj.
      - exact Ely.
      - exact G4.
      - exact Hw4.
      - lia.
      - apply (sees_grows _ _ _ _ R4'). apply (between_sees _ _ _ _ B3 Hs1).
      - exists h5, (one_or_list ys). unfold do_slice. rewrite En. cbn [node_of bindr fst snd]. rewrite E5. cbn [bindr fst snd].
        split; [reflexivity|]. split; [exact Ex|]. split; [|split; [exact Logic.I|auto]].
        eapply between_trans; [exact B3|]. eapply between_trans; [|exact B5]. split; assumption. }
    { split; [exact G1|apply grows_refl]. }
    rewrite E2. cbn [bindr fst snd].
    (* blocks with one label *)
    destruct (range_ok ord ord_perm (do_map ord p 3) (g_map (dblocks decode_vbody bs)) m (between h1 p) (fun _ _ => True) p 2 h2)
      as [h3 [E3 [B3 _]]].
    { rewrite g_map_keys. exact Hn1. }
    { rewrite g_map_keys. exact Km. }
    { intros h3 t ds El B3.
      assert (Ht : In t (types 1 bs)) by (rewrite <- (g_map_keys decode_vbody); apply lookup_Some_key; exists ds; exact El).
      assert (Hts : In t (keys m)) by (rewrite Km; exact Ht). apply lookup_Some_key in Hts. destruct Hts as [x Ex].
      destruct (Hm0 t x Hn1 Ex) as [ys [-> [Hnl [Ky Hys]]]].
      rewrite (g_map_spec decode_vbody bs t Hnl Ht) in El. injection El as <-.
      destruct (labels_ok (g' ++ g) P (labelled t bs) ys 3 t Hnl Ky) with (h := h3) (c0 := p) (p := p) as [h5 [E5 B5]].
      - intros n b Hin. destruct (Hys Hnl n b Hin) as [y [Ey Hd]]. exists y. split; [exact Ey|]. split; [exact Hd|].
        eapply allowed_down; [exact Hal|]. apply in_labelled. exact Hin.
      - apply (proj1 B3).
      - apply (between_walk _ _ _ _ _ B3 Hw1).
      - lia.
      - apply (between_sees _ _ _ _ B3 Hs1).
      - exists h5, (NMap ys). split; [exact E5|]. split; [exact Ex|]. split; [|split; [exact Logic.I|auto]].
        eapply between_trans; eauto. }
    { exact B2. }
    rewrite E3. cbn [bindr fst snd].
    (* blocks with two labels *)
    destruct (range_ok ord ord_perm (do_map2 ord p) (g_map2 (dblocks decode_vbody bs)) m2 (between h1 p) (fun _ _ => True) p 4 h3)
      as [h4 [E4 [B4 _]]].
    { rewrite g_map2_keys. exact Hn2. }
    { rewrite g_map2_keys. exact Km2. }
    { intros h4 t ds El B4.
      assert (Ht : In t (types 2 bs)) by (rewrite <- (g_map2_keys decode_vbody); apply lookup_Some_key; exists ds; exact El).
      assert (Hts : In t (keys m2)) by (rewrite Km2; exact Ht). apply lookup_Some_key in Hts. destruct Hts as [x Ex].
      destruct (Hm20 t x Hn2 Ex) as [ys [-> [Ky Hys]]].
      assert (Eds : get_or (g_map2 (dblocks decode_vbody bs)) t = ds) by (unfold get_or; rewrite El; reflexivity).
      assert (Kds : keys ds = firsts (firsts_of t bs)) by (rewrite <- Eds; apply g_map2_first).
      destruct (good_node A h4 r P p t (proj1 B4) (between_walk _ _ _ _ _ B4 Hw1)) as [h5 [c [En [G5 [Hlt [R5 Hw5]]]]]].
      assert (R5' : grows (fun q _ => q <= p) h4 h5) by (eapply grows_weaken; [|exact R5]; simpl; auto).
      assert (B5 : between h4 p h5) by (split; assumption).
      assert (Hs5 : sees (fun q _ => q <= p) h5 r (g' ++ g)).
      { apply (sees_grows _ _ _ _ R5'). apply (between_sees _ _ _ _ B4 Hs1). }
      destruct (range_ok ord ord_perm (do_map ord c 6) ds ys (between h5 p) (fun _ _ => True) c 5 h5) as [h6 [E6 [B6 _]]].
      - rewrite Kds. apply firsts_NoDup.
      - rewrite Kds. exact Ky.
      - intros h6 l dl Edl B6.
        assert (Hl : In l (firsts (firsts_of t bs))) by (rewrite <- Kds; apply lookup_Some_key; exists dl; exact Edl).
        assert (Hlk : In l (keys ys)) by (rewrite Ky; exact Hl). apply lookup_Some_key in Hlk. destruct Hlk as [x Ex2].
        destruct (Hys l x (firsts_NoDup _) Ex2) as [zs [-> [Hnl [Kz Hzs]]]].
        assert (Edl2 : dl = dlabels decode_vbody (paired t l bs)).
        { rewrite <- (g_map2_spec decode_vbody bs t l Hnl), Eds. unfold get_or. rewrite Edl. reflexivity. }
        subst dl.
        destruct (labels_ok (g' ++ g) (P ++ [t]) (paired t l bs) zs 6 l Hnl Kz) with (h := h6) (c0 := c) (p := p)
          as [h7 [E7 B7]].
        + intros n b Hin. destruct (Hzs Hnl n b Hin) as [y [Ey Hd]]. exists y. split; [exact Ey|]. split; [exact Hd|].
          eapply allowed_down; [exact Hal|]. apply in_paired. exact Hin.
        + apply (proj1 B6).
        + apply (between_walk _ _ _ _ _ B6 Hw5).
        + lia.
        + apply (between_sees _ _ _ _ B6 Hs5).
        + exists h7, (NMap zs). split; [exact E7|]. split; [exact Ex2|]. split; [|split; [exact Logic.I|auto]].
          eapply between_trans; eauto.
      - split; [exact G5|apply grows_refl].
      - exists h6, (NMap ys). unfold do_map2. rewrite En. cbn [node_of bindr fst snd]. rewrite E6. cbn [bindr fst snd].
        split; [reflexivity|]. split; [exact Ex|]. split; [|split; [exact Logic.I|auto]].
        eapply between_trans; [exact B4|]. eapply between_trans; eauto. }
    { exact B3. }
    rewrite E4. cbn [bindr fst snd]. exists h4. split; [|split; [exact (proj1 B4)|]].
    + rewrite insert_fresh; [reflexivity| |].
      * rewrite !map_app. fold (keys s) (keys m) (keys m2). rewrite Ks, Km, Km2. apply NoDup_app_r in Hn. exact Hn.
      * intros k Hk. rewrite !map_app in Hk. fold (keys s) (keys m) (keys m2) in Hk. rewrite Ks, Km, Km2 in Hk.
        fold (keys xs). rewrite (attrs_give_keys _ _ _ _ _ Ha). unfold keys.
        clear -Hn Hk. induction (map fst attrs) as [|a l IH]; [intros []|]. simpl in Hn. inversion Hn as [|? ? Ha Hn']; subst.
        intros [->|Hin]; [apply Ha; apply in_or_app; right; exact Hk|]. apply (IH Hn' Hin).
    + eapply grows_trans.
      * exact R1.
      * eapply grows_weaken; [|exact (proj2 B4)]. simpl. intros q k Hq. lia.
  - intros g P bs. split; [reflexivity|]. intros t x _ E; discriminate.
  - intros g P bs t ts xs s _ [El Hx] _ [Kr Hr]. split; [simpl; f_equal; exact Kr|].
    intros t' x Hn E. inversion Hn as [|? ? Ht Hn']; subst. simpl in E. destruct (eq_dec t' t) as [->|Hne].
    + injection E as <-. exists xs. split; [reflexivity|]. split; [exact El|]. exact Hx.
    + apply (Hr t' x Hn' E).
  - intros g P i. split; [reflexivity|]. intros [|j] b E; discriminate.
  - intros g P i b l x xs _ Hb _ [El Hl]. split; [simpl; congruence|].
    intros [|j] b' E; simpl in E.
    + injection E as <-. exists x. split; [reflexivity|]. rewrite Nat.add_0_r. exact Hb.
    + destruct (Hl j b' E) as [y [Ey Hd]]. exists y. split; [exact Ey|]. rewrite Nat.add_succ_r. exact Hd.
  - intros g P bs. split; [reflexivity|]. intros t x _ E; discriminate.
  - intros g P bs t ts xs s Hnl _ Hl _ [Kr Hr]. split; [simpl; f_equal; exact Kr|].
    intros t' x Hn E. inversion Hn as [|? ? Ht Hn']; subst. simpl in E. destruct (eq_dec t' t) as [->|Hne].
    + injection E as <-. exists xs. auto.
    + apply (Hr t' x Hn' E).
  - intros g P. split; [reflexivity|]. intros _ n b [].
  - intros g P l b s x xs _ Hb _ [Kl Hl]. split; [simpl; f_equal; exact Kl|].
    intros Hn n b' Hin. inversion Hn as [|? ? Hnl Hn']; subst. simpl. destruct Hin as [Hin|Hin].
    + inversion Hin; subst. exists x. destruct (eq_dec n n); [|contradiction]. auto.
    + destruct (eq_dec n l) as [->|]; [exfalso; apply Hnl; apply (in_map fst) in Hin; exact Hin|].
      apply (Hl Hn' n b' Hin).
  - intros g P bs. split; [reflexivity|]. intros t x _ E; discriminate.
  - intros g P bs t ts xs s _ Hp _ [Kr Hr]. split; [simpl; f_equal; exact Kr|].
    intros t' x Hn E. inversion Hn as [|? ? Ht Hn']; subst. simpl in E. destruct (eq_dec t' t) as [->|Hne].
    + injection E as <-. exists xs. auto.
    + apply (Hr t' x Hn' E).
  - intros g P t bs. split; [reflexivity|]. intros l x _ E; discriminate.
  - intros g P t bs l ls xs s Hnl _ Hl _ [Kr Hr]. split; [simpl; f_equal; exact Kr|].
    intros t' x Hn E. inversion Hn as [|? ? Ht Hn']; subst. simpl in E. destruct (eq_dec t' l) as [->|Hne].
    + injection E as <-. exists xs. auto.
    + apply (Hr t' x Hn' E).
Qed.
End B.
