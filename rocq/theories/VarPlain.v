(* Proofs for VarModel.v: documents without references and calls decode as in HclModel.v,
   whatever is in the tree and whatever the order of the loops. *)

From Verif Require Import Base CtyModel HclModel HclSpec HclParse HclDecode TreeModel TreeSpec TreeProofs VarModel VarSpec VarTree VarProofs VarGroup VarBody VarStruct.

(* The expressions and bodies of HclModel.v among those of VarModel.v. *)
Fixpoint vexpr_of (e : expr) : vexpr :=
  match e with
  | ENum z => VNum z
  | EDec m k => VDec m k
  | EStr s => VStr s
  | EBool b => VBool b
  | ENull => VNull
  | ECall f => VCall f []
  | EVar x => VRef x []
  | ETuple l => VTuple (map vexpr_of l)
  | EObj m => VObj (map (fun kv => (VStr (fst kv), vexpr_of (snd kv))) m)
  end.
Definition vattrs_of (l : list (string * expr)) : list (string * vexpr) :=
  map (fun kv => (fst kv, vexpr_of (snd kv))) l.
Fixpoint vblock_of (i : item) : list (string * list string * vbody) :=
  match i with
  | IAttr _ _ => []
  | IBlock t ls b => [(t, ls, VBody (vattrs_of (body_attrs b)) (flat_map vblock_of b))]
  end.
Definition vbody_of (its : list item) : vbody :=
  VBody (vattrs_of (body_attrs its)) (flat_map vblock_of its).

Section P.
Variable norm : string -> string.
Variable to_text : CtyModel.cval -> result string.
Variable binary : string -> CtyModel.cval -> CtyModel.cval -> result CtyModel.cval.
Variable fs : funcs.
Variable r : nat.
Variable ord : order.
Hypothesis ord_perm : forall p site ks, Permutation ks (ord p site ks).
Notation theap := (heap CtyModel.cval).
Definition any (_ : list string) (_ : string) : Prop := True.
Definition sound (h : theap) : Prop := good any h r.
Definition at_node (h : theap) (p : nat) : Prop := exists P, walk h r P = Some p.
Notation expr_to_native := (expr_to_native norm to_text binary (Some r) fs).
Notation tuple_into := (tuple_into norm to_text binary (Some r) fs).
Notation obj_into := (obj_into norm to_text binary (Some r) fs).

(* From h to h': nodes stay. *)
Definition onto (h h' : theap) : Prop := sound h' /\ forall p, at_node h p -> at_node h' p.
Lemma onto_refl : forall h, sound h -> onto h h.
Proof. intros h S0. split; auto. Qed.
Lemma onto_trans : forall h1 h2 h3, onto h1 h2 -> onto h2 h3 -> onto h1 h3.
Proof. intros h1 h2 h3 [_ H1] [S3 H2]. split; [exact S3|auto]. Qed.
Lemma grows_onto : forall ok h h', sound h' -> grows ok h h' -> onto h h'.
Proof. intros ok h h' S' G. split; [exact S'|]. intros p [P W]. exists P. eapply grows_walk; eauto. Qed.

Lemma node_onto : forall h p n, sound h -> at_node h p ->
  exists h' c, add_node h p n = Some (h', c) /\ onto h h' /\ at_node h' c.
Proof.
  intros h p n S0 [P W]. destruct (good_node any h r P p n S0 W) as [h' [c [E [G' [_ [R W']]]]]].
  exists h', c. split; [exact E|]. split; [eapply grows_onto; eauto|]. exists (P ++ [n])%list. exact W'.
Qed.
Lemma item_onto : forall h p k v, sound h -> at_node h p -> exists h', add_item h p k v = Some h' /\ onto h h'.
Proof.
  intros h p k v S0 [P W]. destruct (good_item any (fun _ _ => False) h r P p k v S0 W Logic.I (fun H => H)) as [h' [E [G' [R _]]]].
  exists h'. split; [exact E|]. eapply grows_onto; eauto.
Qed.

Lemma sound_vars : forall h, sound h -> exists vars, ctx_vars h (Some r) = Ok vars.
Proof. intros h S0. destruct (unfold_root any h r S0) as [t [Et _]]. unfold ctx_vars. rewrite Et. eauto. Qed.

Definition e_ok (e : expr) : Prop := forall x h p key, expr_native e = Ok x -> sound h -> at_node h p ->
  exists h', expr_to_native h p key (vexpr_of e) = Ok (h', x) /\ onto h h'.

Lemma tuple_plain : forall l, Forall e_ok l -> forall xs h c i,
  (fix go l := match l with
   | [] => Ok []
   | e :: l' => do x <- expr_native e; do u <- go l'; Ok (x :: u)
   end) l = Ok xs -> sound h -> at_node h c ->
  exists h', tuple_into h c i (map vexpr_of l) = Ok (h', xs) /\ onto h h'.
Proof.
  intros l H. induction H as [|e l He Hl IH]; intros xs h c i E S0 Hc.
  - inversion E; subst. exists h. split; [reflexivity|apply onto_refl; exact S0].
  - apply bindr_Ok in E. destruct E as [x [Ex E]]. apply bindr_Ok in E. destruct E as [u [Eu E]]. inversion E; subst.
    destruct (He x h c (index_name i) Ex S0 Hc) as [h1 [E1 O1]].
    destruct (IH u h1 c (S i) Eu (proj1 O1) (proj2 O1 c Hc)) as [h2 [E2 O2]].
    exists h2. cbn [map VarModel.tuple_into]. rewrite E1. cbn [bindr fst snd]. rewrite E2. split; [reflexivity|eapply onto_trans; eauto].
Qed.
Lemma obj_plain : forall m, Forall (fun kv => e_ok (snd kv)) m -> forall xs h c,
  (fix go m := match m with
   | [] => Ok []
   | (k, e) :: m' => do x <- expr_native e; do u <- go m'; Ok ((k, x) :: u)
   end) m = Ok xs -> sound h -> at_node h c ->
  exists h', obj_into h c (map (fun kv => (VStr (fst kv), vexpr_of (snd kv))) m) = Ok (h', xs) /\ onto h h'.
Proof.
  intros m H. induction H as [|[k e] m He Hm IH]; intros xs h c E S0 Hc.
  - inversion E; subst. exists h. split; [reflexivity|apply onto_refl; exact S0].
  - apply bindr_Ok in E. destruct E as [x [Ex E]]. apply bindr_Ok in E. destruct E as [u [Eu E]]. inversion E; subst.
    destruct (He x h c k Ex S0 Hc) as [h1 [E1 O1]].
    destruct (IH u h1 c Eu (proj1 O1) (proj2 O1 c Hc)) as [h2 [E2 O2]].
    exists h2. cbn [map VarModel.obj_into fst snd VarModel.eval as_string bindr]. simpl in E1. rewrite E1. cbn [bindr fst snd].
    rewrite E2. split; [reflexivity|eapply onto_trans; eauto].
Qed.

Lemma expr_ind_list : forall (Q : expr -> Prop),
  (forall z, Q (ENum z)) -> (forall m k, Q (EDec m k)) -> (forall s, Q (EStr s)) -> (forall b, Q (EBool b)) -> Q ENull ->
  (forall f, Q (ECall f)) -> (forall x, Q (EVar x)) ->
  (forall l, Forall Q l -> Q (ETuple l)) -> (forall m, Forall (fun kv => Q (snd kv)) m -> Q (EObj m)) ->
  forall e, Q e.
Proof.
  intros Q H1 H0 H2 H3 H4 H5 H6 H7 H8. fix IH 1. intros [z|m k|s|b| |f|x|l|m].
  - apply H1.
  - apply H0.
  - apply H2.
  - apply H3.
  - apply H4.
  - apply H5.
  - apply H6.
  - apply H7. induction l as [|e l IHl]; constructor; [exact (IH e)|exact IHl].
  - apply H8. induction m as [|[k e] m IHm]; constructor; [exact (IH e)|exact IHm].
Qed.

(* Literals: evaluated in any tree, and stored. *)
Lemma literal_plain : forall e v x h p key, container e = false -> (forall f args, e <> VCall f args) ->
  (forall vars, VarModel.eval to_text binary vars None e = Ok v) ->
  cty_to_native v = Ok x -> sound h -> at_node h p ->
  exists h', expr_to_native h p key e = Ok (h', x) /\ onto h h'.
Proof.
  intros e v x h p key Hc Hf Ev Hx S0 Hp.
  destruct (sound_vars h S0) as [vars Evars].
  assert (Ea : eval_at norm to_text binary h (Some r) fs e = Ok v).
  { unfold eval_at. rewrite Evars. cbn [bindr]. destruct e; try discriminate; try (exact (Ev vars)).
    exfalso. eapply Hf; reflexivity. }
  destruct (item_onto h p key v S0 Hp) as [h' [Ei O]]. exists h'. split; [|exact O].
  destruct e; try discriminate; cbn [VarModel.expr_to_native]; try rewrite Ea; cbn [bindr]; try rewrite Ei;
    cbn [node_of bindr]; try rewrite Hx; try reflexivity.
  exfalso. eapply Hf; reflexivity.
Qed.

Lemma expr_plain : forall e, e_ok e.
Proof.
  apply expr_ind_list.
  - intros z x h p key E S0 Hp. eapply literal_plain; [reflexivity|discriminate|intros vars; reflexivity|exact E|exact S0|exact Hp].
  - intros dm dk x h p key E S0 Hp. eapply literal_plain; [reflexivity|discriminate|intros vars; reflexivity|exact E|exact S0|exact Hp].
  - intros s x h p key E S0 Hp. eapply literal_plain; [reflexivity|discriminate|intros vars; reflexivity|exact E|exact S0|exact Hp].
  - intros b x h p key E S0 Hp. eapply literal_plain; [reflexivity|discriminate|intros vars; reflexivity|exact E|exact S0|exact Hp].
  - intros x h p key E S0 Hp. eapply literal_plain; [reflexivity|discriminate|intros vars; reflexivity|exact E|exact S0|exact Hp].
  - intros f x h p key E S0 Hp. cbn [expr_native] in E. cbn [vexpr_of VarModel.expr_to_native].
    destruct (String.eqb f "null"); [|discriminate]. inversion E; subst. exists h. split; [reflexivity|apply onto_refl; exact S0].
  - intros y x h p key E; discriminate.
  - intros l Hl x h p key E S0 Hp. cbn [expr_native] in E. apply bindr_Ok in E. destruct E as [u [Eu E]]. inversion E; subst.
    cbn [vexpr_of]. rewrite tuple_unfold_any. destruct (node_onto h p key S0 Hp) as [h1 [c [En [O1 Hc]]]]. rewrite En. cbn [node_of bindr fst snd].
    destruct (tuple_plain l Hl u h1 c 0 Eu (proj1 O1) Hc) as [h2 [E2 O2]]. rewrite E2. exists h2. split; [reflexivity|eapply onto_trans; eauto].
  - intros m Hm x h p key E S0 Hp. cbn [expr_native] in E. apply bindr_Ok in E. destruct E as [u [Eu E]]. inversion E; subst.
    cbn [vexpr_of]. rewrite obj_unfold_any. destruct (node_onto h p key S0 Hp) as [h1 [c [En [O1 Hc]]]]. rewrite En. cbn [node_of bindr fst snd].
    destruct (obj_plain m Hm u h1 c Eu (proj1 O1) Hc) as [h2 [E2 O2]]. rewrite E2. exists h2. split; [reflexivity|eapply onto_trans; eauto].
Qed.

(* ----- blocks: the two groupings go along ----- *)

Definition d_ok (d : dec) (x : result native) : Prop := forall y h p, x = Ok y -> sound h -> at_node h p ->
  exists h', d h p = Ok (h', y) /\ onto h h'.

Definition same {X Y} (R : X -> Y -> Prop) (m : list (string * X)) (m' : list (string * Y)) : Prop :=
  Forall2 (fun a b => fst a = fst b /\ R (snd a) (snd b)) m m'.

Lemma same_add : forall {X Y} (R : X -> Y -> Prop) k x y m m', R x y -> same (Forall2 R) m m' ->
  same (Forall2 R) (add_list k x m) (add_list k y m').
Proof.
  intros X Y R k x y m m' Hxy H. induction H as [|[k1 l] [k2 l'] m m' [Hk Hl] Hm IH]; simpl in *.
  - repeat constructor. exact Hxy.
  - subst k2. destruct (string_dec k k1); constructor; auto; simpl; auto. split; [reflexivity|]. apply Forall2_app; auto.
Qed.
Lemma same_insert : forall {X Y} (R : X -> Y -> Prop) (k : string) x y m m', R x y -> same R m m' -> same R (insert k x m) (insert k y m').
Proof.
  intros X Y R k x y m m' Hxy H. induction H as [|[k1 a] [k2 b] m m' [Hk Hab] Hm IH]; simpl in *.
  - repeat constructor. exact Hxy.
  - subst k2. destruct (eq_dec k k1); constructor; auto.
Qed.
Lemma same_get : forall {X Y} (R : X -> Y -> Prop) k m m', same (Forall2 R) m m' -> Forall2 R (get_or m k) (get_or m' k).
Proof.
  intros X Y R k m m' H. unfold get_or. induction H as [|[k1 a] [k2 b] m m' [Hk Hab] Hm IH]; simpl in *; [constructor|].
  subst k2. destruct (eq_dec k k1); [exact Hab|exact IH].
Qed.
Lemma same_keys : forall {X Y} (R : X -> Y -> Prop) m m', same R m m' -> keys m = keys m'.
Proof. intros X Y R m m' H. induction H as [|[k1 a] [k2 b] m m' [Hk _] Hm IH]; simpl in *; [reflexivity|]. unfold keys in *. simpl. congruence. Qed.
Lemma same_lookup : forall {X Y} (R : X -> Y -> Prop) k m m' a, same R m m' -> lookup k m = Some a -> exists b, lookup k m' = Some b /\ R a b.
Proof.
  intros X Y R k m m' a H. induction H as [|[k1 x] [k2 y] m m' [Hk Hxy] Hm IH]; simpl in *; [discriminate|].
  subst k2. destruct (eq_dec k k1); [|exact IH]. intros E; inversion E; subst. eauto.
Qed.

Definition b_ok (b : string * list string * dec) (c : dblock) : Prop := fst b = fst c /\ d_ok (snd b) (snd c).

Lemma slices_same : forall bs cs, Forall2 b_ok bs cs -> same (Forall2 d_ok) (g_slice bs) (slice_bodies cs).
Proof.
  intros bs cs H. unfold g_slice, slice_bodies.
  assert (H0 : same (Forall2 d_ok) [] []) by constructor. revert H0.
  generalize (@nil (string * list dec)) (@nil (string * list (result native))).
  induction H as [|[[t ls] d] [[t' ls'] x] bs cs [Hf Hd] Hbs IH]; intros m m' H0; simpl; [exact H0|].
  simpl in Hf, Hd. inversion Hf; subst t' ls'. apply IH. destruct ls; [apply same_add; assumption|exact H0].
Qed.
Lemma maps_same : forall bs cs, Forall2 b_ok bs cs -> same (same d_ok) (g_map bs) (map_bodies cs).
Proof.
  intros bs cs H. unfold g_map, map_bodies.
  assert (H0 : same (same d_ok) [] []) by constructor. revert H0.
  generalize (@nil (string * list (string * dec))) (@nil (string * list (string * result native))).
  induction H as [|[[t ls] d] [[t' ls'] x] bs cs [Hf Hd] Hbs IH]; intros m m' H0; simpl; [exact H0|].
  simpl in Hf, Hd. inversion Hf; subst t' ls'. apply IH. destruct ls as [|l [|l2 ls]]; try exact H0.
  apply same_insert; [|exact H0]. apply same_insert; [exact Hd|]. apply (same_get _ t m m' H0).
Qed.
Lemma map2s_same : forall bs cs, Forall2 b_ok bs cs -> same (same (same d_ok)) (g_map2 bs) (map2_bodies cs).
Proof.
  intros bs cs H. unfold g_map2, map2_bodies.
  assert (H0 : same (same (same d_ok)) [] []) by constructor. revert H0.
  generalize (@nil (string * list (string * list (string * dec)))) (@nil (string * list (string * list (string * result native)))).
  induction H as [|[[t ls] d] [[t' ls'] x] bs cs [Hf Hd] Hbs IH]; intros m m' H0; simpl; [exact H0|].
  simpl in Hf, Hd. inversion Hf; subst t' ls'. apply IH. destruct ls as [|l [|l2 [|l3 ls]]]; try exact H0.
  pose proof (same_get _ t m m' H0) as H1.
  apply same_insert; [|exact H0]. apply same_insert; [|exact H1]. apply same_insert; [exact Hd|]. apply (same_get _ l _ _ H1).
Qed.
Lemma many_same : forall bs cs, Forall2 b_ok bs cs -> existsb many_labels bs = existsb too_many cs.
Proof.
  intros bs cs H. induction H as [|b c bs cs [Hf _] Hbs IH]; simpl; [reflexivity|]. rewrite IH. f_equal.
  unfold many_labels, too_many. rewrite Hf. reflexivity.
Qed.

(* ----- assigning groups ----- *)

Lemma assign_fold : forall {X} (f : X -> result native) g obj o, assign f g obj = Ok o ->
  exists xs, keys xs = keys g /\ (forall k a, lookup k g = Some a -> NoDup (keys g) -> exists x, f a = Ok x /\ lookup k xs = Some x) /\
    o = fold_left (fun o kv => insert (fst kv) (snd kv) o) xs obj.
Proof.
  intros X f g. induction g as [|[k a] g IH]; intros obj o E; simpl in E.
  - inversion E; subst. exists []. split; [reflexivity|]. split; [intros k a E'; discriminate|reflexivity].
  - apply bindr_Ok in E. destruct E as [x [Ex E]]. destruct (IH _ _ E) as [xs [Kx [Hx Ho]]].
    exists ((k, x) :: xs). split; [unfold keys in *; simpl; congruence|]. split; [|exact Ho].
    intros k' a' El Hn. inversion Hn as [|? ? Hk Hn']; subst. simpl in El. simpl. destruct (eq_dec k' k) as [->|].
    + inversion El; subst. eauto.
    + apply (Hx k' a' El Hn').
Qed.

Lemma force_labels : forall (m : list (string * result native)) u, force_all m = Ok u ->
  keys u = keys m /\ forall k x, NoDup (keys m) -> lookup k m = Some x -> exists y, x = Ok y /\ lookup k u = Some y.
Proof.
  intros m. induction m as [|[k a] m IH]; intros u E; unfold force_all in E; simpl in E.
  - inversion E; subst. split; [reflexivity|]. intros k x _ E'; discriminate.
  - fold (force_all m) in E. apply bindr_Ok in E. destruct E as [y [Ey E]]. apply bindr_Ok in E. destruct E as [w [Ew E]]. inversion E; subst.
    destruct (IH w Ew) as [Kw Hw]. split; [unfold keys in *; simpl; congruence|].
    intros k' x Hn El. inversion Hn as [|? ? Hk Hn']; subst. simpl in El. simpl. destruct (eq_dec k' k) as [->|].
    + inversion El; subst. eauto.
    + apply (Hw k' x Hn' El).
Qed.

Lemma slice_plain : forall ds xs, Forall2 d_ok ds xs -> forall u, force_all (map (fun a => (tt, a)) xs) = Ok u ->
  forall h c i, sound h -> at_node h c -> exists h', slice_go h c i ds = Ok (h', map snd u) /\ onto h h'.
Proof.
  intros ds xs H. induction H as [|d x ds xs Hd Hds IH]; intros u E h c i S0 Hc; cbn [map] in E; unfold force_all in E; simpl in E.
  - inversion E; subst. exists h. split; [reflexivity|apply onto_refl; exact S0].
  - fold (force_all (map (fun a => (tt, a)) xs)) in E. apply bindr_Ok in E. destruct E as [y [Ey E]]. apply bindr_Ok in E. destruct E as [w [Ew E]]. inversion E; subst.
    destruct (node_onto h c (index_name i) S0 Hc) as [h1 [c1 [En [O1 Hc1]]]].
    destruct (Hd y h1 c1 eq_refl (proj1 O1) Hc1) as [h2 [E2 O2]].
    assert (O12 : onto h h2) by (eapply onto_trans; eauto).
    destruct (IH w Ew h2 c (S i) (proj1 O2) (proj2 O12 c Hc)) as [h3 [E3 O3]].
    exists h3. cbn [slice_go]. rewrite En. cbn [node_of bindr fst snd]. rewrite E2. cbn [bindr fst snd]. rewrite E3.
    split; [reflexivity|eapply onto_trans; eauto].
Qed.

Lemma map_plain : forall m m', same d_ok m m' -> NoDup (keys m) -> forall u, map_value m' = Ok u ->
  forall h p site t, sound h -> at_node h p -> exists h', do_map ord p site h t m = Ok (h', u) /\ onto h h'.
Proof.
  intros m m' Hs Hn u E h p site t S0 Hp. unfold map_value in E. apply bindr_Ok in E. destruct E as [xs [Ex E]]. inversion E; subst u; clear E.
  destruct (force_labels m' xs Ex) as [Kx Hx]. pose proof (same_keys _ _ _ Hs) as Ek.
  unfold do_map. destruct (node_onto h p t S0 Hp) as [h1 [c [En [O1 Hc]]]]. rewrite En. cbn [node_of bindr fst snd].
  destruct (range_ok ord ord_perm (do_label c) m xs (onto h1) (fun _ _ => True) c site h1 Hn ltac:(congruence)) as [h2 [E2 [O2 _]]].
  - intros h2 k d El O2. destruct (same_lookup _ _ _ _ _ Hs El) as [x [Elx Hd]].
    destruct (Hx k x ltac:(rewrite <- Ek; exact Hn) Elx) as [y [-> Ely]].
    destruct (node_onto h2 c k (proj1 O2) (proj2 O2 c Hc)) as [h3 [c1 [En3 [O3 Hc1]]]].
    destruct (Hd y h3 c1 eq_refl (proj1 O3) Hc1) as [h4 [E4 O4]].
    exists h4, y. unfold do_label. rewrite En3. cbn [node_of bindr fst snd]. split; [exact E4|]. split; [exact Ely|].
    split; [|split; [exact Logic.I|auto]]. eapply onto_trans; [exact O2|]. eapply onto_trans; eauto.
  - apply onto_refl. apply O1.
  - rewrite E2. exists h2. split; [reflexivity|eapply onto_trans; eauto].
Qed.

(* Groupings have distinct keys. *)
Lemma keys_NoDup_insert : forall {X} (k : string) (x : X) m, NoDup (keys m) -> NoDup (keys (insert k x m)).
Proof.
  intros X k x m Hn. rewrite keys_insert. destruct (in_dec string_dec k (keys m)); [exact Hn|].
  apply Permutation_NoDup with (l := k :: keys m); [apply Permutation_cons_append|constructor; assumption].
Qed.
Definition map_ok (m : list (string * list (string * dec))) : Prop :=
  NoDup (keys m) /\ forall k, NoDup (keys (get_or m k)).
Lemma map_ok_insert : forall t l d m, map_ok m -> map_ok (insert t (insert l d (get_or m t)) m).
Proof.
  intros t l d m [H1 H2]. split; [apply keys_NoDup_insert; exact H1|]. intros k. unfold get_or at 1.
  destruct (eq_dec k t) as [->|Hne]; [rewrite lookup_insert_eq; apply keys_NoDup_insert; apply H2|].
  rewrite lookup_insert_ne by exact Hne. apply (H2 k).
Qed.
Lemma g_slice_keys : forall bs, NoDup (keys (g_slice bs)).
Proof.
  intros bs. unfold g_slice. assert (H0 : NoDup (keys (@nil (string * list dec)))) by constructor. revert H0.
  generalize (@nil (string * list dec)). induction bs as [|[[t ls] d] bs IH]; intros m H0; simpl; [exact H0|].
  apply IH. destruct ls; [|exact H0]. rewrite keys_add_list. destruct (in_dec string_dec t (keys m)); [exact H0|].
  apply Permutation_NoDup with (l := t :: keys m); [apply Permutation_cons_append|constructor; assumption].
Qed.
Lemma g_map_ok : forall bs, map_ok (g_map bs).
Proof.
  intros bs. unfold g_map. assert (H0 : map_ok []) by (split; [constructor|intros k; constructor]). revert H0.
  generalize (@nil (string * list (string * dec))). induction bs as [|[[t ls] d] bs IH]; intros m H0; simpl; [exact H0|].
  apply IH. destruct ls as [|l [|l2 ls]]; try exact H0. apply map_ok_insert. exact H0.
Qed.
Lemma g_map2_ok : forall bs, NoDup (keys (g_map2 bs)) /\ forall t, map_ok (get_or (g_map2 bs) t).
Proof.
  intros bs. unfold g_map2.
  assert (H0 : NoDup (keys (@nil (string * list (string * list (string * dec))))) /\ forall t, map_ok (get_or (@nil (string * list (string * list (string * dec)))) t)).
  { split; [constructor|]. intros t. split; [constructor|intros k; constructor]. }
  revert H0. generalize (@nil (string * list (string * list (string * dec)))).
  induction bs as [|[[t ls] d] bs IH]; intros m H0; simpl; [exact H0|].
  apply IH. destruct ls as [|l [|l2 [|l3 ls]]]; try exact H0. destruct H0 as [H1 H2]. split; [apply keys_NoDup_insert; exact H1|].
  intros t'. unfold get_or at 1. destruct (eq_dec t' t) as [->|Hne].
  - rewrite lookup_insert_eq. apply map_ok_insert. apply H2.
  - rewrite lookup_insert_ne by exact Hne. apply (H2 t').
Qed.

Lemma keys_vattrs : forall l, keys (vattrs_of l) = map fst l.
Proof. intros l. unfold keys, vattrs_of. rewrite map_map. reflexivity. Qed.

Lemma attrs_plain : forall l xs h p, attrs_native l = Ok xs -> NoDup (map fst l) -> sound h -> at_node h p ->
  exists h', range ord p 0 (fun h k e => expr_to_native h p k e) (vattrs_of l) h = Ok (h', xs) /\ onto h h'.
Proof.
  intros l xs h p E Hn S0 Hp.
  assert (Hl : keys xs = map fst l /\ forall k e, lookup k (vattrs_of l) = Some e ->
            exists e0 x, e = vexpr_of e0 /\ expr_native e0 = Ok x /\ lookup k xs = Some x).
  { clear Hn S0 Hp h p. revert xs E. induction l as [|[k e] l IH]; intros xs E; simpl in E.
    - inversion E; subst. split; [reflexivity|]. intros k e E'; discriminate.
    - apply bindr_Ok in E. destruct E as [x [Ex E]]. apply bindr_Ok in E. destruct E as [u [Eu E]]. inversion E; subst.
      destruct (IH u Eu) as [Ku Hu]. split; [unfold keys in *; simpl; congruence|].
      intros k' e' El. simpl in El. simpl. destruct (eq_dec k' k) as [->|]; [|apply Hu; exact El].
      inversion El; subst. eauto. }
  destruct Hl as [Kx Hx].
  destruct (range_ok ord ord_perm (fun h k e => expr_to_native h p k e) (vattrs_of l) xs (onto h) (fun _ _ => True) p 0 h
              ltac:(rewrite keys_vattrs; exact Hn) ltac:(rewrite keys_vattrs; exact Kx)) as [h' [E' [O _]]].
  - intros h1 k e El O1. destruct (Hx k e El) as [e0 [x [-> [Ex Elx]]]].
    destruct (expr_plain e0 x h1 p k Ex (proj1 O1) (proj2 O1 p Hp)) as [h2 [E2 O2]].
    exists h2, x. split; [exact E2|]. split; [exact Elx|]. split; [eapply onto_trans; eauto|]. auto.
  - apply onto_refl. exact S0.
  - exists h'. auto.
Qed.

Lemma assemble_plain : forall l bs cs xs, attrs_native l = Ok xs -> NoDup (map fst l) -> Forall2 b_ok bs cs ->
  d_ok (decode_with norm to_text binary (Some r) fs ord (vattrs_of l) bs) (assemble xs cs).
Proof.
  intros l bs cs xs Ea Hn Hbs y h p E S0 Hp. unfold assemble in E. rewrite <- (many_same _ _ Hbs) in E. unfold decode_with.
  destruct (attrs_plain l xs h p Ea Hn S0 Hp) as [h1 [E1 O1]]. rewrite E1. cbn [bindr fst snd].
  destruct (existsb many_labels bs); [discriminate|].
  apply bindr_Ok in E. destruct E as [o1 [Eo1 E]]. apply bindr_Ok in E. destruct E as [o2 [Eo2 E]].
  apply bindr_Ok in E. destruct E as [o3 [Eo3 E]]. inversion E; subst y; clear E.
  destruct (assign_fold _ _ _ _ Eo1) as [s [Ks [Hs ->]]]. destruct (assign_fold _ _ _ _ Eo2) as [m [Km [Hm ->]]].
  destruct (assign_fold _ _ _ _ Eo3) as [m2 [Km2 [Hm2 ->]]].
  pose proof (slices_same _ _ Hbs) as Ss. pose proof (maps_same _ _ Hbs) as Sm. pose proof (map2s_same _ _ Hbs) as Sm2.
  pose proof (g_slice_keys bs) as Ns. destruct (g_map_ok bs) as [Nm Nml]. destruct (g_map2_ok bs) as [Nm2 Nm2l].
  destruct (range_ok ord ord_perm (do_slice p) (g_slice bs) s (onto h) (fun _ _ => True) p 1 h1 Ns
              ltac:(rewrite (same_keys _ _ _ Ss); exact Ks)) as [h2 [E2 [O2 _]]].
  { intros h2 t ds El O2. destruct (same_lookup _ _ _ _ _ Ss El) as [xs' [Elx Hd]].
    destruct (Hs t xs' Elx ltac:(rewrite <- (same_keys _ _ _ Ss); exact Ns)) as [x [Ex Elx2]].
    unfold slice_value in Ex. apply bindr_Ok in Ex. destruct Ex as [u [Eu Ex]]. inversion Ex; subst x; clear Ex.
    destruct (node_onto h2 p t (proj1 O2) (proj2 O2 p Hp)) as [h3 [c [En [O3 Hc]]]].
    destruct (slice_plain ds xs' Hd u Eu h3 c 0 (proj1 O3) Hc) as [h4 [E4 O4]].
    eexists h4, _. unfold do_slice. rewrite En. cbn [node_of bindr fst snd]. rewrite E4. cbn [bindr fst snd].
    split; [reflexivity|]. split; [|split; [|split; [exact Logic.I|auto]]].
    - rewrite Elx2. f_equal. destruct u as [|[[] a] [|b u]]; reflexivity.
    - eapply onto_trans; [exact O2|]. eapply onto_trans; eauto. }
  { exact O1. }
  rewrite E2. cbn [bindr fst snd].
  destruct (range_ok ord ord_perm (do_map ord p 3) (g_map bs) m (onto h) (fun _ _ => True) p 2 h2 Nm
              ltac:(rewrite (same_keys _ _ _ Sm); exact Km)) as [h3 [E3 [O3 _]]].
  { intros h3 t ds El O3. destruct (same_lookup _ _ _ _ _ Sm El) as [xs' [Elx Hd]].
    destruct (Hm t xs' Elx ltac:(rewrite <- (same_keys _ _ _ Sm); exact Nm)) as [x [Ex Elx2]].
    pose proof (Nml t) as Nt. unfold get_or in Nt. rewrite El in Nt.
    destruct (map_plain ds xs' Hd Nt x Ex h3 p 3 t (proj1 O3) (proj2 O3 p Hp)) as [h4 [E4 O4]].
    exists h4, x. split; [exact E4|]. split; [exact Elx2|]. split; [eapply onto_trans; eauto|]. auto. }
  { exact O2. }
  rewrite E3. cbn [bindr fst snd].
  destruct (range_ok ord ord_perm (do_map2 ord p) (g_map2 bs) m2 (onto h) (fun _ _ => True) p 4 h3 Nm2
              ltac:(rewrite (same_keys _ _ _ Sm2); exact Km2)) as [h4 [E4 [O4 _]]].
  { intros h4 t ds El O4. destruct (same_lookup _ _ _ _ _ Sm2 El) as [xs' [Elx Hd]].
    destruct (Hm2 t xs' Elx ltac:(rewrite <- (same_keys _ _ _ Sm2); exact Nm2)) as [x [Ex Elx2]].
    destruct (Nm2l t) as [Nt Ntl]. unfold get_or at 1 in Nt. rewrite El in Nt.
    assert (Eds : get_or (g_map2 bs) t = ds) by (unfold get_or; rewrite El; reflexivity). rewrite Eds in Ntl.
    unfold map2_value in Ex. apply bindr_Ok in Ex. destruct Ex as [u [Eu Ex]]. inversion Ex; subst x; clear Ex.
    destruct (force_labels _ u Eu) as [Ku Hu].
    assert (Kds : keys (map (fun kv => (fst kv, map_value (snd kv))) xs') = keys ds).
    { unfold keys. rewrite map_map. simpl. symmetry. apply (same_keys _ _ _ Hd). }
    destruct (node_onto h4 p t (proj1 O4) (proj2 O4 p Hp)) as [h5 [c [En [O5 Hc]]]].
    destruct (range_ok ord ord_perm (do_map ord c 6) ds u (onto h5) (fun _ _ => True) c 5 h5 Nt
                ltac:(rewrite Ku; exact Kds)) as [h6 [E6 [O6 _]]].
    - intros h6 lb dl Edl O6. destruct (same_lookup _ _ _ _ _ Hd Edl) as [xl [Exl Hdl]].
      assert (Elm : lookup lb (map (fun kv => (fst kv, map_value (snd kv))) xs') = Some (map_value xl)).
      { clear -Exl. induction xs' as [|[k a] xs' IH]; simpl in *; [discriminate|]. destruct (eq_dec lb k); [congruence|auto]. }
      destruct (Hu lb (map_value xl) ltac:(rewrite Kds; exact Nt) Elm) as [x [Ex Elx3]].
      pose proof (Ntl lb) as Nl. unfold get_or in Nl. rewrite Edl in Nl.
      destruct (map_plain dl xl Hdl Nl x Ex h6 c 6 lb (proj1 O6) (proj2 O6 c Hc)) as [h7 [E7 O7]].
      exists h7, x. split; [exact E7|]. split; [exact Elx3|]. split; [eapply onto_trans; eauto|]. auto.
    - apply onto_refl. apply O5.
    - exists h6, (NMap u). unfold do_map2. rewrite En. cbn [node_of bindr fst snd]. rewrite E6. cbn [bindr fst snd].
      split; [reflexivity|]. split; [exact Elx2|]. split; [|auto]. eapply onto_trans; [exact O4|]. eapply onto_trans; eauto. }
  { exact O3. }
  rewrite E4. cbn [bindr fst snd]. exists h4. split; [|exact O4]. rewrite !fold_left_app. reflexivity.
Qed.

Lemma dblocks_flat : forall its, dblocks (decode_vbody norm to_text binary (Some r) fs ord) (flat_map vblock_of its) =
  flat_map (fun i => dblocks (decode_vbody norm to_text binary (Some r) fs ord) (vblock_of i)) its.
Proof. intros its. unfold dblocks. rewrite !flat_map_concat_map, concat_map, map_map. reflexivity. Qed.

Lemma blocks_flat : forall its, body_blocks its = flat_map (fun i => match item_block i with Some x => [x] | None => [] end) its.
Proof. induction its as [|i its IH]; simpl; [reflexivity|]. rewrite IH. destruct (item_block i); reflexivity. Qed.

Lemma decode_unfold_any : forall attrs bs, decode_vbody norm to_text binary (Some r) fs ord (VBody attrs bs) =
  decode_with norm to_text binary (Some r) fs ord attrs (dblocks (decode_vbody norm to_text binary (Some r) fs ord) bs).
Proof.
  intros attrs bs. cbn [VarModel.decode_vbody]. f_equal. unfold dblocks.
  induction bs as [|[[t ls] b] bs IH]; [reflexivity|]. simpl. rewrite IH. reflexivity.
Qed.

Notation decode_vbody := (decode_vbody norm to_text binary (Some r) fs ord).

Lemma body_plain_with : forall its, distinct_attrs its ->
  Forall2 b_ok (dblocks decode_vbody (flat_map vblock_of its)) (body_blocks its) ->
  d_ok (decode_vbody (vbody_of its)) (decode_body its).
Proof.
  intros its D Hb y h p E S0 Hp. destruct D as [its D1 D2]. rewrite attr_names_keys in D1.
  unfold decode_body in E. apply bindr_Ok in E. destruct E as [xs [Ex E]].
  unfold vbody_of. rewrite decode_unfold_any.
  apply (assemble_plain (body_attrs its) _ _ xs Ex D1 Hb y h p E S0 Hp).
Qed.

Lemma items_plain : forall i, match i with
  | IAttr _ _ => True
  | IBlock _ _ b => distinct_attrs b -> d_ok (decode_vbody (vbody_of b)) (decode_body b)
  end.
Proof.
  induction i as [k e|t ls b IH] using item_ind'; [exact Logic.I|].
  intros D. apply body_plain_with; [exact D|]. destruct D as [b _ D2].
  rewrite dblocks_flat, blocks_flat. induction b as [|i b IHb]; simpl; [constructor|].
  apply Forall2_app.
  - destruct i as [k e|t' ls' b']; [constructor|]. rewrite item_block_eq. simpl. repeat constructor. simpl.
    apply (IH (IBlock t' ls' b') (or_introl eq_refl)). apply (D2 t' ls' b'). left; reflexivity.
  - apply IHb; [intros i' Hi'; apply IH; right; exact Hi'|]. intros t' ls' b' Hin. apply (D2 t' ls' b'). right; exact Hin.
Qed.

Lemma body_plain : forall its, distinct_attrs its -> d_ok (decode_vbody (vbody_of its)) (decode_body its).
Proof. intros its D. apply (items_plain (IBlock "" [] its) D). Qed.
End P.

Theorem document_plain : forall norm to_text binary fs ord given its x,
  NoDup (map fst given) -> (forall p site ks, Permutation ks (ord p site ks)) ->
  distinct_attrs its -> decode_body its = Ok x ->
  exists h', decode_vbody norm to_text binary (Some 0) fs ord (vbody_of its) (given_tree given) 0 = Ok (h', x).
Proof.
  intros norm to_text binary fs ord given its x Hn Hord D E.
  destruct (body_plain norm to_text binary fs 0 ord Hord its D x (given_tree given) 0 E) as [h' [E' _]].
  - apply given_good; [exact Hn|]. intros k _. exact Logic.I.
  - exists []. reflexivity.
  - exists h'. exact E'.
Qed.
