(* Functions on values that are partly unknown. *)

From Verif Require Import Base CtyModel FuncModel FuncSpec FuncProofs FuncList.
From Coq Require Import Lia.

Lemma conforms_refl : forall t, conforms t t = true.
Proof.
  induction t as [k l IH] using ty_ind'. cbn [conforms]. apply orb_true_iff. right. apply andb_true_iff. split; [destruct k; reflexivity|].
  induction l as [|[n t] l IHl]; [reflexivity|].
  rewrite String.eqb_refl, (IH n t (or_introl eq_refl)). cbn [andb]. apply IHl. intros m u J. exact (IH m u (or_intror J)).
Qed.
Lemma conforms_fixed : forall a b, conforms a b = true -> has_dyn b = false -> a = b.
Proof.
  induction a as [k l IH] using ty_ind'. intros [k' l'] C D. cbn [conforms] in C. cbn [has_dyn] in D.
  apply orb_false_iff in D. destruct D as [D D']. rewrite D in C. cbn [orb] in C. apply andb_true_iff in C. destruct C as [Ck C].
  assert (k = k') as <- by (destruct k, k'; try discriminate; reflexivity). clear D Ck. f_equal.
  revert l' C D'. induction l as [|[n t] l IHl]; intros [|[n' t'] l'] C D; try discriminate; [reflexivity|].
  apply andb_true_iff in C. destruct C as [C C3]. apply andb_true_iff in C. destruct C as [C1 C2].
  apply orb_false_iff in D. destruct D as [D1 D2]. apply String.eqb_eq in C1. subst n'.
  rewrite (IH n t (or_introl eq_refl) t' C2 D1). f_equal. apply IHl; [intros m u J; exact (IH m u (or_intror J))|exact C3|exact D2].
Qed.

(* ----- completions ----- *)

Definition pairs (R : value -> value -> Prop) := Forall2 (fun a b : string * value => fst a = fst b /\ R (snd a) (snd b)).
Lemma completes_inv : forall ms s l v, completes (Val ms s l) v ->
  (exists t p, s = SUnknown t p /\ l = [] /\ conforms (type_of v) t = true /\ forall x, shape_of v = SStr x -> prefix p x = true) \/
  (exists ms' l', v = Val ms' s l' /\ (forall t p, s <> SUnknown t p) /\
    (forall t, s = SSet t -> wholly_known (Val ms s l) = true) /\ pairs completes l l') \/
  (exists ms' t l', v = Val ms' s l' /\ s = SSet t /\ wholly_known (Val ms s l) = false /\ List.length l' <= List.length l /\ l' <> [] /\
    forall b, In b l' -> exists a, In a l /\ completes (snd a) (snd b)).
Proof.
  intros ms s l v H. inversion H as [? t p ? C P|? ms' ? ? l' N K F|? ms' t ? l' K L E R]; subst.
  - left. eauto 8.
  - right. left. eauto 8.
  - right. right. exists ms', t, l'. repeat split; auto.
Qed.
Lemma pairs_in : forall R l l' k v, pairs R l l' -> In (k, v) l -> exists v', In (k, v') l' /\ R v v'.
Proof.
  intros R l l' k v H. induction H as [|[a x] [b y] l l' [E X] H IH]; intro J; [destruct J|]. cbn in E, X. subst b.
  destruct J as [J|J]; [injection J as <- <-; exists y; split; [left; reflexivity|exact X]|].
  destruct (IH J) as (v' & J' & X'). exists v'. split; [right; exact J'|exact X'].
Qed.
Lemma pairs_in' : forall R l l' k v', pairs R l l' -> In (k, v') l' -> exists v, In (k, v) l /\ R v v'.
Proof.
  intros R l l' k v H. induction H as [|[a x] [b y] l l' [E X] H IH]; intro J; [destruct J|]. cbn in E, X. subst b.
  destruct J as [J|J]; [injection J as <- <-; exists x; split; [left; reflexivity|exact X]|].
  destruct (IH J) as (v' & J' & X'). exists v'. split; [right; exact J'|exact X'].
Qed.
Lemma pairs_length : forall R l l', pairs R l l' -> List.length l = List.length l'.
Proof. intros R l l' H. induction H; cbn; congruence. Qed.
Lemma pairs_impl : forall (R Q : value -> value -> Prop) l l', pairs R l l' ->
  (forall k v k' v', In (k, v) l -> In (k', v') l' -> R v v' -> Q v v') -> pairs Q l l'.
Proof.
  intros R Q l l' H. induction H as [|[a x] [b y] l l' [E X] H IH]; intro J; constructor.
  - split; [exact E|]. exact (J a x b y (or_introl eq_refl) (or_introl eq_refl) X).
  - apply IH. intros k v k' v' I1 I2. exact (J k v k' v' (or_intror I1) (or_intror I2)).
Qed.

Lemma tuple_type : forall l, (fix go l := match l with [] => [] | (_, x) :: l => ("", type_of x) :: go l end) l
  = map (fun kv : string * value => ("", type_of (snd kv))) l.
Proof. induction l as [|[k x] l IH]; [reflexivity|]. rewrite IH. reflexivity. Qed.
Lemma obj_type : forall l, (fix go l := match l with [] => [] | (k, x) :: l => (k, type_of x) :: go l end) l
  = map (fun kv : string * value => (fst kv, type_of (snd kv))) l.
Proof. induction l as [|[k x] l IH]; [reflexivity|]. rewrite IH. reflexivity. Qed.

Lemma completes_type : forall v v', completes v v' -> fixed v -> type_of v' = type_of v.
Proof.
  induction v as [ms s l IH] using value_ind'. intros v' C D.
  apply completes_inv in C. destruct C as [(t & p & -> & -> & C & _)|[(ms' & l' & -> & N & _ & F)|(ms' & t & l' & -> & -> & _)]].
  - cbn [type_of]. exact (conforms_fixed _ _ C D).
  - destruct s; try reflexivity.
    + unfold fixed in D. cbn [type_of] in *. rewrite !tuple_type in *. f_equal. clear N.
      assert (D' : forall k v, In (k, v) l -> has_dyn (type_of v) = false).
      { intros k v J. apply (has_dyn_args _ _ "" _ D). apply in_map_iff. exists (k, v). auto. }
      clear D. induction F as [|[a x] [b y] l l' [E X] F IHF]; [reflexivity|]. cbn [map fst snd] in *.
      rewrite (IH a x (or_introl eq_refl) y X (D' a x (or_introl eq_refl))). f_equal.
      apply IHF; [intros k v J; exact (IH k v (or_intror J))|intros k v J; exact (D' k v (or_intror J))].
    + unfold fixed in D. cbn [type_of] in *. rewrite !obj_type in *. f_equal. clear N.
      assert (D' : forall k v, In (k, v) l -> has_dyn (type_of v) = false).
      { intros k v J. apply (has_dyn_args _ _ k _ D). apply in_map_iff. exists (k, v). auto. }
      clear D. induction F as [|[a x] [b y] l l' [E X] F IHF]; [reflexivity|]. cbn [map fst snd] in *. subst b.
      rewrite (IH a x (or_introl eq_refl) y X (D' a x (or_introl eq_refl))). f_equal.
      apply IHF; [intros k v J; exact (IH k v (or_intror J))|intros k v J; exact (D' k v (or_intror J))].
  - reflexivity.
Qed.

Lemma unmark_in2 : forall l k v, In (k, v) l -> In (k, unmark_deep v) (unmark_all l).
Proof. intros l k v J. unfold unmark_all. apply in_map_iff. exists (k, v). auto. Qed.
Lemma completes_unmark : forall v v', completes v v' -> completes (unmark_deep v) (unmark_deep v').
Proof.
  induction v as [ms s l IH] using value_ind'. intros v' C.
  apply completes_inv in C. destruct C as [(t & p & -> & -> & C & P)|[(ms' & l' & -> & N & K & F)|(ms' & t & l' & -> & -> & K & L & E & R)]];
    rewrite !unmark_deep_eq.
  - apply cp_unknown; [rewrite type_unmark_deep; exact C|]. rewrite shape_unmark_deep. exact P.
  - apply cp_same; [exact N| |].
    + intros t E. rewrite <- unmark_deep_eq with (ms := ms), known_unmark. exact (K t E).
    + clear K N. induction F as [|[a x] [b y] l l' [E X] F IHF]; constructor.
      * split; [exact E|]. exact (IH a x (or_introl eq_refl) y X).
      * apply IHF. intros k v J. exact (IH k v (or_intror J)).
  - apply cp_set; unfold unmark_all.
    + rewrite <- known_unmark, unmark_deep_eq in K. exact K.
    + rewrite !map_length. exact L.
    + destruct l'; [congruence|discriminate].
    + intros b J. apply in_map_iff in J. destruct J as ([k y] & <- & J). destruct (R _ J) as ([k' x] & J' & X).
      exists (k', unmark_deep x). split; [apply in_map_iff; exists (k', x); auto|]. exact (IH k' x J' y X).
Qed.
Lemma completes_known : forall v v', completes v v' -> wholly_known v = true -> unmark_deep v' = unmark_deep v.
Proof.
  induction v as [ms s l IH] using value_ind'. intros v' C K.
  apply completes_inv in C. destruct C as [(t & p & -> & -> & C & P)|[(ms' & l' & -> & N & _ & F)|(ms' & t & l' & -> & -> & K' & _)]].
  - discriminate.
  - rewrite !unmark_deep_eq. f_equal. destruct (wholly_known_in _ _ _ K) as [_ Kl]. clear K N.
    induction F as [|[a x] [b y] l l' [E X] F IHF]; [reflexivity|]. cbn [unmark_all map fst snd] in *. subst b.
    rewrite (IH a x (or_introl eq_refl) y X (Kl a x (or_introl eq_refl))). f_equal.
    apply IHF; [intros k v J; exact (IH k v (or_intror J))|intros k v J; exact (Kl k v (or_intror J))].
  - congruence.
Qed.
Lemma completes_with : forall v v' ms ms', completes v v' -> completes (with_marks ms v) (with_marks ms' v').
Proof.
  intros [m s l] [m' s' l'] ms ms' C. cbn [with_marks]. apply completes_inv in C.
  destruct C as [(t & p & -> & -> & C & P)|[(ms0 & l0 & E & N & K & F)|(ms0 & t & l0 & E & -> & K & L & E' & R)]].
  - apply cp_unknown; [|exact P]. destruct s'; exact C.
  - injection E as <- <- <-. apply cp_same; auto.
  - injection E as <- -> <-. apply cp_set; auto.
Qed.
Lemma completes_shape : forall v v', completes v v' -> is_known v = true -> shape_of v' = shape_of v.
Proof.
  intros [ms s l] v' C K. apply completes_inv in C.
  destruct C as [(t & p & -> & _)|[(ms0 & l0 & -> & _)|(ms0 & t & l0 & -> & _)]]; [discriminate|reflexivity|reflexivity].
Qed.
Lemma completes_unknown : forall t v, conforms (type_of v) t = true -> completes (unknown t) v.
Proof. intros t v C. apply cp_unknown; [exact C|]. intros [|c s] _; reflexivity. Qed.

(* ----- calls ----- *)

Lemma final_unknown : forall t r, (forall v, r = Ok v -> conforms (type_of v) t = true) -> (forall p, r <> Panic p) ->
  final (Ok (unknown t)) r.
Proof.
  intros t [v|e|p] H N; cbn [final].
  - left. exists v. split; [reflexivity|]. apply completes_unknown. apply H. reflexivity.
  - right. eauto.
  - exfalso. exact (N p eq_refl).
Qed.
Lemma final_with : forall ms ms' a b, final a b ->
  final (do r <- a; Ok (with_marks ms r)) (do r <- b; Ok (with_marks ms' r)).
Proof.
  intros ms ms' [r|e|p] b H; cbn [final bindr] in *.
  - destruct H as [(r' & -> & C)|(K & e & ->)]; cbn [bindr].
    + left. eexists. split; [reflexivity|]. apply completes_with. exact C.
    + right. split; [unfold is_known in *; rewrite shape_with; exact K|eauto].
  - destruct H as (e' & ->). cbn [bindr]. eauto.
  - destruct H.
Qed.

Definition strict (p : param) : Prop := p_null p = false /\ p_unknown p = false /\ p_marked p = false.
Definition arg_pair (a b : param * value) : Prop := fst a = fst b /\ strict (fst a) /\ completes (snd a) (snd b) /\ fixed (snd a).
Lemma check_final : forall l l', Forall2 arg_pair l l' ->
  ((exists e, check_args l = Err e) /\ exists e, check_args l' = Err e) \/
  (check_args l = Ok false /\ (check_args l' = Ok false \/ (existsb unknown_arg l = true /\ exists e, check_args l' = Err e))).
Proof.
  intros l l' H. induction H as [|[p v] [p' v'] l l' (Ep & (S1 & S2 & S3) & C & D) H IH]; [right; auto|]. cbn [fst snd] in *. subst p'.
  cbn [check_args]. rewrite S1. cbn [negb]. rewrite !andb_true_r. rewrite (completes_type _ _ C D).
  assert (K : kind_eqb (kind_of (type_of v)) KDyn = false) by (apply not_dyn; exact D). rewrite K.
  destruct (is_null v) eqn:N.
  { left. split; [eauto|]. assert (N' : is_null v' = true) by (unfold is_null in *; rewrite (completes_shape _ _ C); [exact N|unfold is_known; destruct (shape_of v); congruence]).
    rewrite N'. eauto. }
  destruct (conforms (type_of v) (p_type p)) eqn:Cf; cbn [negb].
  2:{ left. split; [eauto|]. destruct (is_null v'); eauto. }
  destruct (is_null v') eqn:N'.
  { assert (U : is_known v = false).
    { destruct (is_known v) eqn:U; [|reflexivity]. unfold is_null in *. rewrite (completes_shape _ _ C U) in N'. congruence. }
    destruct IH as [((e & IH) & _)|(IH & IH')]; [left; split; eauto|]. right. split; [exact IH|]. right. split; [|eauto].
    cbn [existsb]. unfold unknown_arg at 1. cbn [fst snd]. rewrite U, S2. reflexivity. }
  destruct IH as [(IH & IH')|(IH & IH')]; [left; auto|]. right. split; [exact IH|].
  destruct IH' as [IH'|(U & IH')]; [left; exact IH'|right]. split; [cbn [existsb]; rewrite U; apply orb_true_r|exact IH'].
Qed.
Lemma pair_final : forall ps args args', Forall strict ps -> Forall2 (fun v v' => completes v v' /\ fixed v) args args' ->
  (pair_args ps None args = None /\ pair_args ps None args' = None) \/
  (exists l l', pair_args ps None args = Some l /\ pair_args ps None args' = Some l' /\ Forall2 arg_pair l l' /\
     map seen l = map unmark_deep args /\ map seen l' = map unmark_deep args' /\
     existsb unknown_arg l = existsb (fun v => negb (is_known v)) args /\
     existsb unknown_arg l' = existsb (fun v => negb (is_known v)) args').
Proof.
  induction ps as [|p ps IH]; intros args args' S F.
  - destruct F; [right; exists [], []; repeat split; constructor|left; auto].
  - destruct F as [|v v' args args' (C & D) F]; [left; auto|]. inversion S as [|? ? Sp S']; subst. destruct Sp as (S1 & S2 & S3).
    cbn [pair_args]. destruct (IH _ _ S' F) as [(-> & ->)|(l & l' & -> & -> & A & E1 & E2 & E3 & E4)]; [left; auto|].
    right. eexists _, _. split; [reflexivity|]. split; [reflexivity|]. split; [constructor; [repeat split; auto|exact A]|].
    cbn [map existsb]. rewrite E1, E2, E3, E4. unfold seen, unknown_arg. cbn [fst snd]. rewrite S2, S3. cbn [negb]. rewrite !andb_true_r. auto.
Qed.

Lemma final_call : forall early ps ft impl args args', Forall strict ps ->
  Forall2 (fun v v' => completes v v' /\ fixed v) args args' -> existsb (fun v => negb (is_known v)) args' = false ->
  ft (map unmark_deep args') = ft (map unmark_deep args) ->
  (forall t r, ft (map unmark_deep args) = Ok t -> impl (map unmark_deep args') t = Ok r -> conforms (type_of r) t = true) ->
  (forall t, ft (map unmark_deep args) = Ok t -> existsb (fun v => negb (is_known v)) args = false ->
    final (no_panic (impl (map unmark_deep args) t)) (no_panic (impl (map unmark_deep args') t))) ->
  final (call early (mkFunc ps None ft impl) args) (call early (mkFunc ps None ft impl) args').
Proof.
  intros early ps ft impl args args' S F K Eft Ty Fin. unfold call. cbn [f_params f_var f_type f_impl].
  destruct (pair_final _ _ _ S F) as [(-> & ->)|(l & l' & -> & -> & A & E1 & E2 & E3 & E4)]; [cbn; eauto|].
  rewrite E1, E2, E4, K, Eft.
  destruct (check_final _ _ A) as [((e & ->) & (e' & ->))|(-> & [-> |(U & e & ->)])].
  - cbn. eauto.
  - cbn [bindr]. destruct (ft (map unmark_deep args)) as [t|e|e] eqn:Ft; cbn [no_panic bindr]; [|cbn; eauto|cbn; eauto].
    destruct (existsb unknown_arg l) eqn:U.
    + apply (final_with _ _ (Ok (unknown t))). apply final_unknown.
      * intros v E. exact (Ty t v eq_refl (proj1 (no_panic_Ok _ _ _) E)).
      * intros p E. destruct (impl (map unmark_deep args') t); discriminate.
    + apply final_with. exact (Fin t eq_refl (eq_sym E3)).
  - cbn [bindr]. rewrite U. destruct (ft (map unmark_deep args)) as [t|e'|e'] eqn:Ft; cbn [no_panic bindr final]; [|eauto|eauto].
    right. split; [unfold is_known; rewrite shape_with; reflexivity|eauto].
Qed.

(* ----- equality ----- *)

Lemma fixed_in : forall ms s l k v, typed (Val ms s l) -> fixed (Val ms s l) -> In (k, v) l -> typed v /\ fixed v.
Proof.
  intros ms s l k v T D J. unfold fixed in *.
  inversion T as [| | | | |? t ? H|? t ? H|? t ? _ H|? ? H|? ? _ H]; subst; try (destruct J; fail).
  - destruct (H k v J) as [Tv Et]. split; [exact Tv|]. rewrite Et. apply (has_dyn_args KList [("", t)] "" t D). left. reflexivity.
  - destruct (H k v J) as [Tv Et]. split; [exact Tv|]. rewrite Et. apply (has_dyn_args KSet [("", t)] "" t D). left. reflexivity.
  - destruct (H k v J) as [Tv Et]. split; [exact Tv|]. rewrite Et. apply (has_dyn_args KMap [("", t)] "" t D). left. reflexivity.
  - split; [exact (H k v J)|]. cbn [type_of] in D. rewrite tuple_type in D. apply (has_dyn_args _ _ "" _ D). apply in_map_iff. exists (k, v). auto.
  - split; [exact (H k v J)|]. cbn [type_of] in D. rewrite obj_type in D. apply (has_dyn_args _ _ k _ D). apply in_map_iff. exists (k, v). auto.
Qed.

Section Eq.
Variable sn : number -> number -> bool.

Lemma equals_known : forall ms s l ms' s' l', (forall t p, s <> SUnknown t p) -> (forall t p, s' <> SUnknown t p) ->
  (forall t, s <> SNull t) -> (forall t, s' <> SNull t) -> fixed (Val ms s l) -> fixed (Val ms' s' l') ->
  equals sn (Val ms s l) (Val ms' s' l')
  = if negb (ty_eqb (type_of (Val ms s l)) (type_of (Val ms' s' l'))) then Some false
    else if negb (same_scalar sn s s') then Some false
    else if negb (Nat.eqb (List.length l) (List.length l')) then Some false
    else equal_elems sn l l'.
Proof.
  intros ms s l ms' s' l' U U' N N' D D'. unfold fixed in *.
  destruct s; try (exfalso; eapply U; reflexivity); try (exfalso; eapply N; reflexivity);
  destruct s'; try (exfalso; eapply U'; reflexivity); try (exfalso; eapply N'; reflexivity);
  cbn [equals]; rewrite D, D'; reflexivity.
Qed.
Lemma equals_null : forall v w, is_known v = true -> is_known w = true -> is_null v <> is_null w -> equals sn v w = Some false.
Proof.
  intros [ms s l] [ms' s' l'] K K' N. destruct s; try discriminate; destruct s'; try discriminate; try reflexivity; exfalso; apply N; reflexivity.
Qed.
Lemma equals_types : forall v w, is_known v = true -> is_known w = true -> is_null v = false \/ is_null w = false -> fixed v -> fixed w ->
  type_of v <> type_of w -> equals sn v w = Some false.
Proof.
  intros [ms s l] [ms' s' l'] K K' N D D' T.
  destruct (is_null (Val ms s l)) eqn:A, (is_null (Val ms' s' l')) eqn:B; try (destruct N; discriminate);
    try (apply equals_null; auto; congruence).
  rewrite equals_known; auto; try (intros; intro; subst; discriminate).
  destruct (ty_eqb _ _) eqn:E; [apply ty_eqb_eq in E; contradiction|reflexivity].
Qed.
Lemma known_text : forall v, is_known v = true -> is_null v = false -> type_of v = str -> exists s, shape_of v = SStr s.
Proof. intros [ms s l] K N T. destruct s; try discriminate. cbn. eauto. Qed.
Lemma excluded_final : forall p v w w' t ms, completes (Val ms (SUnknown t p) []) v -> completes w w' -> is_known v = true -> is_known w = true ->
  excluded p w = true -> type_of v = type_of w -> fixed v -> fixed w' -> equals sn v w' = Some false /\ equals sn w' v = Some false.
Proof.
  intros p v w w' t ms C C' K K' X T D D'. unfold excluded in X. destruct (shape_of w) as [| |s| | | | | | |] eqn:Sw; try discriminate.
  assert (Tw : type_of w = str) by (destruct w; cbn in Sw; subst; reflexivity).
  assert (Sw' : shape_of w' = SStr s) by (rewrite (completes_shape _ _ C' K'); exact Sw).
  assert (Kw' : is_known w' = true) by (unfold is_known; rewrite Sw'; reflexivity).
  assert (Nw' : is_null w' = false) by (unfold is_null; rewrite Sw'; reflexivity).
  destruct (is_null v) eqn:N; [split; apply equals_null; congruence|].
  destruct (known_text v K N) as (s' & Sv); [congruence|].
  apply completes_inv in C. destruct C as [(? & ? & E & _ & _ & P)|[(? & ? & _ & U & _)|(? & ? & ? & _ & E & _)]]; [|exfalso; eapply U; reflexivity|discriminate].
  injection E as <- <-. specialize (P s' Sv). unfold prefix_fits in X.
  assert (Ne : s' <> s) by (intro; subst; rewrite P in X; discriminate).
  destruct v as [mv sv lv], w' as [mw sw lw]. cbn [shape_of] in *. subst sv sw.
  split; rewrite equals_known by (auto; discriminate); cbn [type_of]; rewrite (proj2 (ty_eqb_eq str str) eq_refl); cbn [negb same_scalar].
  - destruct (String.eqb s' s) eqn:E; [apply String.eqb_eq in E; contradiction|reflexivity].
  - destruct (String.eqb s s') eqn:E; [apply String.eqb_eq in E; congruence|reflexivity].
Qed.

Lemma equals_final : forall v w v' w' b, typed v -> typed w -> fixed v -> fixed w -> closed_sets v -> closed_sets w ->
  completion v v' -> completion w w' -> equals sn v w = Some b -> equals sn v' w' = Some b.
Proof.
  induction v as [ms s l IH] using value_ind'. intros [ms2 s2 l2] v' w' b Tv Tw Dv Dw Sv Sw (Cv & Tv' & Kv') (Cw & Tw' & Kw') E.
  assert (Ev : type_of v' = type_of (Val ms s l)) by (exact (completes_type _ _ Cv Dv)).
  assert (Ew : type_of w' = type_of (Val ms2 s2 l2)) by (exact (completes_type _ _ Cw Dw)).
  assert (Dv' : fixed v') by (unfold fixed; rewrite Ev; exact Dv).
  assert (Dw' : fixed w') by (unfold fixed; rewrite Ew; exact Dw).
  pose proof (known_top _ Kv') as Lv. pose proof (known_top _ Kw') as Lw.
  destruct (is_known (Val ms s l)) eqn:K1.
  2:{ destruct s as [t p| | | | | | | | |]; try discriminate.
      assert (l = []) as -> by (inversion Tv; reflexivity).
      destruct (is_known (Val ms2 s2 l2)) eqn:K2.
      2:{ destruct s2; try discriminate. }
      assert (E' : (if is_null (Val ms2 s2 l2) || has_dyn t then None
        else if negb (ty_eqb t (type_of (Val ms2 s2 l2))) then Some false
        else if excluded p (Val ms2 s2 l2) then Some false else None) = Some b) by (destruct s2; try discriminate K2; exact E).
      clear E. destruct (is_null (Val ms2 s2 l2)) eqn:N2; [discriminate|].
      assert (N' : is_null w' = false) by (unfold is_null; rewrite (completes_shape _ _ Cw K2); exact N2).
      cbn [type_of] in Ev. destruct (has_dyn t); [discriminate|]. cbn [orb] in E'.
      destruct (ty_eqb t (type_of (Val ms2 s2 l2))) eqn:Q; cbn [negb] in E'.
      - apply ty_eqb_eq in Q. destruct (excluded p _) eqn:X; [|discriminate]. injection E' as <-.
        refine (proj1 (excluded_final p v' (Val ms2 s2 l2) w' t ms Cv Cw Lv K2 X _ Dv' Dw')). congruence.
      - injection E' as <-. apply equals_types; auto. intro A. rewrite Ev, Ew in A. apply ty_eqb_eq in A. congruence. }
  assert (Sv' : shape_of v' = s) by (exact (completes_shape _ _ Cv K1)).
  destruct (is_known (Val ms2 s2 l2)) eqn:K2.
  2:{ destruct s2 as [t p| | | | | | | | |]; try discriminate.
      assert (l2 = []) as -> by (inversion Tw; reflexivity).
      assert (E' : (if is_null (Val ms s l) || has_dyn t then None
        else if negb (ty_eqb (type_of (Val ms s l)) t) then Some false
        else if excluded p (Val ms s l) then Some false else None) = Some b) by (destruct s; try discriminate K1; exact E).
      clear E. destruct (is_null (Val ms s l)) eqn:N2; [discriminate|].
      assert (N' : is_null v' = false) by (unfold is_null; rewrite (completes_shape _ _ Cv K1); exact N2).
      cbn [type_of] in Ew. destruct (has_dyn t); [discriminate|]. cbn [orb] in E'.
      destruct (ty_eqb (type_of (Val ms s l)) t) eqn:Q; cbn [negb] in E'.
      - apply ty_eqb_eq in Q. destruct (excluded p _) eqn:X; [|discriminate]. injection E' as <-.
        refine (proj2 (excluded_final p w' (Val ms s l) v' t ms2 Cw Cv Lw K1 X _ Dw' Dv')). congruence.
      - injection E' as <-. apply equals_types; auto. intro A. rewrite Ev, Ew in A. apply ty_eqb_eq in A. congruence. }
  assert (Sw' : shape_of w' = s2) by (exact (completes_shape _ _ Cw K2)).
  destruct (is_null (Val ms s l)) eqn:N1.
  { destruct s; try discriminate. destruct v' as [mv sv lv]. cbn in Sv'. subst sv.
    destruct w' as [mw sw lw]. cbn in Sw'. subst sw. destruct s2; try discriminate; exact E. }
  destruct (is_null (Val ms2 s2 l2)) eqn:N2.
  { destruct s2; try discriminate. destruct v' as [mv sv lv]. cbn in Sv'. subst sv.
    destruct w' as [mw sw lw]. cbn in Sw'. subst sw. destruct s; try discriminate; exact E. }
  assert (U1 : forall t p, s <> SUnknown t p) by (intros t p ->; discriminate).
  assert (U2 : forall t p, s2 <> SUnknown t p) by (intros t p ->; discriminate).
  assert (V1 : forall t, s <> SNull t) by (intros t ->; discriminate).
  assert (V2 : forall t, s2 <> SNull t) by (intros t ->; discriminate).
  apply completes_inv in Cv. destruct Cv as [(t & p & -> & _)|[(mv & lv & -> & _ & _ & Fv)|(mv & t & lv & _ & -> & W & _)]].
  { exfalso. eapply U1. reflexivity. }
  2:{ inversion Sv as [? ? ? W' _]; subst. rewrite (W' t eq_refl) in W. discriminate. }
  apply completes_inv in Cw. destruct Cw as [(t & p & -> & _)|[(mw & lw & -> & _ & _ & Fw)|(mw & t & lw & _ & -> & W & _)]].
  { exfalso. eapply U2. reflexivity. }
  2:{ inversion Sw as [? ? ? W' _]; subst. rewrite (W' t eq_refl) in W. discriminate. }
  rewrite equals_known in E |- * by assumption. rewrite Ev, Ew.
  destruct (negb (ty_eqb _ _)); [exact E|]. destruct (negb (same_scalar sn s s2)); [exact E|].
  rewrite <- (pairs_length _ _ _ Fv), <- (pairs_length _ _ _ Fw). destruct (negb (Nat.eqb _ _)); [exact E|].
  assert (Hv : forall k v, In (k, v) l -> typed v /\ fixed v /\ closed_sets v).
  { intros k v J. destruct (fixed_in _ _ _ _ _ Tv Dv J). inversion Sv; subst. eauto. }
  assert (Hw : forall k v, In (k, v) l2 -> typed v /\ fixed v /\ closed_sets v).
  { intros k v J. destruct (fixed_in _ _ _ _ _ Tw Dw J). inversion Sw; subst. eauto. }
  assert (Gv : forall k v, In (k, v) lv -> typed v /\ wholly_known v = true).
  { intros k v J. destruct (fixed_in _ _ _ _ _ Tv' Dv' J). destruct (wholly_known_in _ _ _ Kv'). eauto. }
  assert (Gw : forall k v, In (k, v) lw -> typed v /\ wholly_known v = true).
  { intros k v J. destruct (fixed_in _ _ _ _ _ Tw' Dw' J). destruct (wholly_known_in _ _ _ Kw'). eauto. }
  clear - IH E Fv Fw Hv Hw Gv Gw.
  revert l2 lw Fw Hw Gw E. induction Fv as [|[k x] [k1 x'] l lv [Ek X] Fv IHF]; intros l2 lw Fw Hw Gw E; [destruct Fw as [|[] []]; exact E|].
  destruct Fw as [|[k2 y] [k3 y'] l2 lw [Ek' Y] Fw]; [exact E|]. cbn [fst snd] in *. subst k1 k3. cbn [equal_elems] in *.
  destruct (negb (String.eqb k k2)); [exact E|].
  destruct (equals sn x y) as [c|] eqn:Q; [|discriminate].
  destruct (Hv k x (or_introl eq_refl)) as (? & ? & ?). destruct (Hw k2 y (or_introl eq_refl)) as (? & ? & ?).
  destruct (Gv k x' (or_introl eq_refl)). destruct (Gw k2 y' (or_introl eq_refl)).
  rewrite (IH k x (or_introl eq_refl) y x' y' c) by (unfold completion; auto).
  destruct c; [|exact E]. apply (IHF (fun k v J => IH k v (or_intror J)) (fun k v J => Hv k v (or_intror J)) (fun k v J => Gv k v (or_intror J)) l2 lw Fw (fun k v J => Hw k v (or_intror J)) (fun k v J => Gw k v (or_intror J)) E).
Qed.
End Eq.

(* ----- the functions ----- *)

Lemma completion_unmark : forall v v', completion v v' -> completion (unmark_deep v) (unmark_deep v').
Proof.
  intros v v' (C & T & K). split; [apply completes_unmark; exact C|]. split; [apply typed_unmark; exact T|]. rewrite known_unmark. exact K.
Qed.
Lemma fixed_unmark : forall v, fixed v -> fixed (unmark_deep v).
Proof. intros v D. unfold fixed in *. rewrite type_unmark_deep. exact D. Qed.
Lemma closed_unmark : forall v, closed_sets v -> closed_sets (unmark_deep v).
Proof.
  induction v as [ms s l IH] using value_ind'. intro H. inversion H as [? ? ? W C]; subst. pose proof (unmark_deep_eq ms s l) as E. rewrite E. constructor.
  - intros t Et. rewrite <- E, known_unmark. exact (W t Et).
  - intros k v J. apply unmark_in in J. destruct J as (w & -> & J). exact (IH k w J (C k w J)).
Qed.
Lemma any_strict : strict any_param.
Proof. repeat split. Qed.
Lemma plain_strict : forall t, strict (plain_param t).
Proof. intro t. repeat split. Qed.

(* A completed list has the completed elements. *)
Lemma completes_iterate : forall v v' l, completes v v' -> iterate v = Ok l ->
  (exists ms, v' = Val ms (shape_of v) (elems v') /\ pairs completes l (elems v')) \/
  (exists ms ms' t l', v = Val ms (SSet t) l /\ v' = Val ms' (SSet t) l' /\ wholly_known v = false /\ List.length l' <= List.length l /\ l' <> [] /\
    forall b, In b l' -> exists a, In a l /\ completes (snd a) (snd b)).
Proof.
  intros [ms s l0] v' l C E. apply completes_inv in C. destruct C as [(t & p & -> & _)|[(ms' & l' & -> & _ & _ & F)|(ms' & t & l' & -> & -> & K & L & N & R)]].
  - destruct ms; discriminate.
  - left. exists ms'. split; [reflexivity|]. cbn [elems]. assert (l = l0) as -> by (destruct ms; [destruct s|]; cbn in E; congruence). exact F.
  - right. exists ms, ms', t, l'. assert (l = l0) as -> by (destruct ms; cbn in E; congruence). auto 8.
Qed.
Lemma unmarked : forall v v', completes v v' -> is_known v = true ->
  exists s l l', unmark_deep v = Val [] s l /\ unmark_deep v' = Val [] s l' /\ s = shape_of v.
Proof.
  intros v v' C K. pose proof (completes_shape _ _ C K) as Sh. destruct v as [ms s l], v' as [ms' s' l']. cbn in Sh. subst s'.
  rewrite !unmark_deep_eq. eauto 8.
Qed.

Section Funcs.
Variable sn : number -> number -> bool.

Lemma index_from_type : forall w l i r, index_from sn i l w = Ok r -> type_of r = numt.
Proof.
  induction l as [|[k v] l IH]; intros i r H; [discriminate|]. cbn [index_from] in H.
  destruct (equals sn v w) as [[|]|]; [injection H as <-; reflexivity|exact (IH _ _ H)|injection H as <-; reflexivity].
Qed.
Lemma index_final : forall w w' l l' i, typed w -> fixed w -> closed_sets w -> completion w w' ->
  pairs (fun v v' => typed v /\ fixed v /\ closed_sets v /\ completion v v') l l' ->
  final (no_panic (index_from sn i l w)) (no_panic (index_from sn i l' w')).
Proof.
  intros w w' l l' i Tw Dw Sw Cw F. revert i. induction F as [|[k v] [k' v'] l l' [_ (T & D & S & C)] F IH]; intro i; [cbn; eauto|].
  cbn [fst snd] in *. destruct (equals sn v w) as [b|] eqn:E.
  - cbn [index_from]. rewrite E, (equals_final sn v w v' w' b T Tw D Dw S Sw C Cw E). destruct b; [|apply IH]. cbn [no_panic final]. left. eexists. split; [reflexivity|].
    apply cp_same; [discriminate|discriminate|constructor].
  - cbn [index_from] in *. rewrite E. apply final_unknown.
    + intros r H. apply (proj1 (no_panic_Ok _ _ _)) in H. rewrite (index_from_type w' ((k', v') :: l') i r H). reflexivity.
    + intros p H. destruct (match equals sn v' w' with Some _ => _ | None => _ end); discriminate.
Qed.

Lemma index_call_final : forall early v v' w w', typed v -> typed w -> fixed v -> fixed w -> closed_sets v -> closed_sets w ->
  completion v v' -> completion w w' ->
  final (call early (index_func sn) [v; w]) (call early (index_func sn) [v'; w']).
Proof.
  intros early v v' w w' Tv Tw Dv Dw Sv Sw Cv Cw. unfold index_func. apply final_call.
  - repeat constructor.
  - repeat constructor; try apply Cv; try apply Cw; assumption.
  - cbn. rewrite (known_top _ (proj2 (proj2 Cv))), (known_top _ (proj2 (proj2 Cw))). reflexivity.
  - reflexivity.
  - intros t r Et. injection Et as <-. cbn [map]. destruct (kind_of _); try discriminate;
      (destruct (iterate (unmark_deep v')) as [[|x l]|e|e]; cbn [bindr]; try discriminate; intro H; rewrite (index_from_type _ _ _ _ H); reflexivity).
  - intros t Et U. injection Et as <-. cbn [map existsb] in *. apply orb_false_iff in U. destruct U as [U _]. apply negb_false_iff in U.
    pose proof (completion_unmark _ _ Cv) as Cu. pose proof (completion_unmark _ _ Cw) as Cx.
    pose proof (typed_unmark _ Tv) as Tu. pose proof (fixed_unmark _ Dv) as Du. pose proof (closed_unmark _ Sv) as Su.
    rewrite !type_unmark_deep, (completes_type _ _ (proj1 Cv) Dv).
    assert (G : match kind_of (type_of v) with KList | KTuple => True | _ => False end -> final
      (no_panic (do l <- iterate (unmark_deep v); match l with [] => Err "cannot search an empty list" | _ => index_from sn 0 l (unmark_deep w) end))
      (no_panic (do l <- iterate (unmark_deep v'); match l with [] => Err "cannot search an empty list" | _ => index_from sn 0 l (unmark_deep w') end))).
    2:{ destruct (kind_of (type_of v)); try (cbn; eauto; fail); apply G; exact Logic.I. }
    rewrite <- (type_unmark_deep v). destruct (unmarked _ _ (proj1 Cv) U) as (s & l & l' & E & E' & Es). rewrite E, E' in *. clear E E'.
    assert (Ks : is_known (Val [] s l) = true) by (unfold is_known; cbn; rewrite Es; exact U).
    intro Hk. destruct s; try discriminate Ks; try (cbn; eauto; fail); try (cbn in Hk; contradiction).
    all: cbn [iterate bindr].
    all: destruct Cu as (Cu & Tu' & Ku'); apply completes_inv in Cu;
      destruct Cu as [(? & ? & ? & _)|[(ms0 & l0 & E0 & _ & _ & F)|(? & ? & ? & _ & ? & _)]]; try discriminate; injection E0 as <- <-.
    all: assert (F' : pairs (fun v v' => typed v /\ fixed v /\ closed_sets v /\ completion v v') l l') by
      (apply (pairs_impl _ _ _ _ F); intros k x k' x' J J' X; destruct (fixed_in _ _ _ _ _ Tu Du J); inversion Su; subst;
       destruct (wholly_known_in _ _ _ Ku') as [_ Wl];
       assert (Tx : typed x') by (inversion Tu'; subst; [match goal with H : forall _ _, In _ _ -> _ /\ _ |- _ => exact (proj1 (H k' x' J')) end || match goal with H : forall _ _, In _ _ -> typed _ |- _ => exact (H k' x' J') end]);
       repeat split; eauto).
    all: pose proof (index_final (unmark_deep w) (unmark_deep w') l l' 0%Z (typed_unmark _ Tw) (fixed_unmark _ Dw) (closed_unmark _ Sw) Cx F') as G.
    all: destruct F' as [|]; [cbn; eauto|exact G].
Qed.
End Funcs.

Section More.
Variable convert : value -> ty -> result value.

Lemma no_panic_not : forall A (r : result A) p, no_panic r <> Panic p.
Proof. intros A [x|e|e] p; discriminate. Qed.
Lemma final_num : forall r, (forall v, r = Ok v -> type_of v = numt) -> final (Ok (unknown numt)) (no_panic r).
Proof.
  intros r H. apply final_unknown; [|apply no_panic_not]. intros v E. apply (proj1 (no_panic_Ok _ _ _)) in E. rewrite (H v E). reflexivity.
Qed.
Lemma completes_refl : forall v, wholly_known v = true -> completes v v.
Proof.
  induction v as [ms s l IH] using value_ind'. intro K. destruct (wholly_known_in _ _ _ K) as [U Kl]. apply cp_same; [exact U|intros; exact K|]. clear K U.
  induction l as [|[k v] l IHl]; constructor; [split; [reflexivity|exact (IH k v (or_introl eq_refl) (Kl k v (or_introl eq_refl)))]|].
  apply IHl; [intros k' v' J; exact (IH k' v' (or_intror J))|intros k' v' J; exact (Kl k' v' (or_intror J))].
Qed.
Definition known_result (r : result value) : Prop := forall v, r = Ok v -> wholly_known v = true.
Lemma final_refl : forall r, known_result r -> final (no_panic r) (no_panic r).
Proof. intros [v|e|e] K; cbn; eauto. left. exists v. split; [reflexivity|apply completes_refl, K; reflexivity]. Qed.

Lemma sum_call_final : forall early v v', fixed v -> completion v v' ->
  final (call early (sum_func convert) [v]) (call early (sum_func convert) [v']).
Proof.
  intros early v v' D C. unfold sum_func. apply final_call.
  - repeat constructor.
  - repeat constructor; [apply C|exact D].
  - cbn. rewrite (known_top _ (proj2 (proj2 C))). reflexivity.
  - reflexivity.
  - intros t r Et. injection Et as <-. cbn [map]. intro H.
    destruct (iterate (unmark_deep v')) as [[|[k x] l]|e|e]; try discriminate.
    destruct (shape_of (unmark_deep v')); try discriminate H;
      (destruct (negb _); [injection H as <-; reflexivity|]; destruct (to_number convert x) as [x0|?|?]; try discriminate H; cbn [bindr] in H;
       destruct (sum_from convert x0 l); try discriminate H; cbn [bindr] in H; injection H as <-; reflexivity).
  - intros t Et U. injection Et as <-. cbn [map existsb] in *. apply orb_false_iff in U. destruct U as [U _]. apply negb_false_iff in U.
    destruct (wholly_known v) eqn:W.
    { rewrite (completes_known _ _ (proj1 C) W). apply final_refl. intros r H.
      destruct (iterate (unmark_deep v)) as [[|[k x] l]|e|e]; try discriminate.
      destruct (shape_of (unmark_deep v)); try discriminate H;
        (rewrite known_unmark, W in H; cbn [negb] in H; destruct (to_number convert x) as [x0|?|?]; try discriminate H; cbn [bindr] in H;
         destruct (sum_from convert x0 l); try discriminate H; cbn [bindr] in H; injection H as <-; reflexivity). }
    destruct (unmarked _ _ (proj1 C) U) as (s & l & l' & E & E' & Es).
    assert (Wl : wholly_known (Val [] s l) = false) by (rewrite <- E, known_unmark; exact W).
    pose proof (completes_unmark _ _ (proj1 C)) as Cu. rewrite E, E' in *.
    assert (Hl : l = [] <-> l' = []).
    { apply completes_inv in Cu. destruct Cu as [(t & p & E1 & _)|[(ms' & l0 & E1 & _ & _ & F)|(ms' & t & l0 & E1 & _ & _ & L & N & _)]].
      - destruct v as [? sv ?]. cbn in Es. subst s. subst sv. discriminate U.
      - injection E1 as <- <-. apply pairs_length in F. destruct l, l'; cbn in F; split; congruence.
      - injection E1 as <- <-. split; [|congruence]. intros ->. cbn in L. destruct l'; [reflexivity|cbn in L; lia]. }
    destruct s; try (cbn; eauto; fail).
    all: cbn [iterate shape_of]; destruct l as [|[k x] l]; [rewrite (proj1 Hl eq_refl); cbn; eauto|].
    all: destruct l' as [|[k' x'] l']; [discriminate (proj2 Hl eq_refl)|].
    all: try (cbn; eauto; fail).
    all: rewrite Wl; cbn [negb]; apply final_num; intros r H.
    all: destruct (negb _); [injection H as <-; reflexivity|]; destruct (to_number convert x') as [x0|?|?]; try discriminate H; cbn [bindr] in H;
      destruct (sum_from convert x0 l'); try discriminate H; cbn [bindr] in H; injection H as <-; reflexivity.
Qed.

(* alltrue and anytrue *)
Lemma all_true_type : forall l r, all_true l = Ok r -> type_of r = boolt.
Proof.
  induction l as [|[k v] l IH]; intros r H; cbn [all_true] in H; [injection H as <-; reflexivity|].
  destruct (shape_of v) as [| | | |[]| | | | |]; try discriminate; try (injection H as <-; reflexivity). exact (IH r H).
Qed.
Lemma any_true_type : forall l u r, any_true u l = Ok r -> type_of r = boolt.
Proof.
  induction l as [|[k v] l IH]; intros u r H; cbn [any_true] in H; [injection H as <-; destruct u; reflexivity|].
  destruct (shape_of v) as [| | | |[]| | | | |]; try discriminate; try (injection H as <-; reflexivity); exact (IH _ r H).
Qed.
Lemma final_bool : forall r, (forall v, r = Ok v -> type_of v = boolt) -> final (Ok (unknown boolt)) (no_panic r).
Proof.
  intros r H. apply final_unknown; [|apply no_panic_not]. intros v E. apply (proj1 (no_panic_Ok _ _ _)) in E. rewrite (H v E). reflexivity.
Qed.
Lemma all_true_final : forall l l', pairs completes l l' -> final (no_panic (all_true l)) (no_panic (all_true l')).
Proof.
  intros l l' F. induction F as [|[k v] [k' v'] l l' [_ C] F IH].
  - apply (final_refl (Ok (bool_val true))). intros r H. injection H as <-. reflexivity.
  - cbn [fst snd] in C. destruct (is_known v) eqn:K.
    + pose proof (completes_shape _ _ C K) as Sh. cbn [all_true]. rewrite Sh.
      unfold is_known in K. destruct (shape_of v) as [| | | |[]| | | | |]; try discriminate; try (cbn; eauto; fail); try exact IH;
        (apply (final_refl (Ok (bool_val false))); intros r H; injection H as <-; reflexivity).
    + cbn [all_true] in *. unfold is_known in K. destruct (shape_of v); try discriminate. apply final_bool. intros r H. exact (all_true_type ((k', v') :: l') r H).
Qed.
Lemma any_true_unknown : forall l, (forall k v, In (k, v) l -> bool_item v) ->
  any_true true l = Ok (bool_val true) \/ any_true true l = Ok (unknown boolt).
Proof.
  induction l as [|[k v] l IH]; intro B; [right; reflexivity|]. cbn [any_true].
  assert (B' : forall k v, In (k, v) l -> bool_item v) by (intros k' v' J; exact (B k' v' (or_intror J))).
  destruct (B k v (or_introl eq_refl)) as [([] & E)|[(t & E)|(t & p & E)]]; rewrite E; auto.
Qed.
Lemma any_true_final : forall l l' u u', pairs completes l l' ->
  (forall k v, In (k, v) l -> bool_item v) -> (forall k v, In (k, v) l' -> bool_item v) ->
  (u' = true -> u = true) -> final (no_panic (any_true u l)) (no_panic (any_true u' l')).
Proof.
  intros l l' u u' F. revert u u'. induction F as [|[k v] [k' v'] l l' [_ C] F IH]; intros u u' B B' Hu.
  - cbn [any_true]. destruct u; [apply final_bool; intros r H; injection H as <-; destruct u'; reflexivity|].
    destruct u'; [discriminate (Hu eq_refl)|]. apply (final_refl (Ok (bool_val false))). intros r H. injection H as <-. reflexivity.
  - cbn [fst snd] in C.
    assert (Bl : forall k v, In (k, v) l -> bool_item v) by (intros x y J; exact (B x y (or_intror J))).
    assert (Bl' : forall k v, In (k, v) l' -> bool_item v) by (intros x y J; exact (B' x y (or_intror J))).
    destruct (is_known v) eqn:K.
    + pose proof (completes_shape _ _ C K) as Sh. cbn [any_true]. rewrite Sh.
      unfold is_known in K. destruct (shape_of v) as [| | | |[]| | | | |]; try discriminate; try (cbn; eauto; fail); try (apply IH; assumption);
        (apply (final_refl (Ok (bool_val true))); intros r H; injection H as <-; reflexivity).
    + cbn [any_true]. unfold is_known in K. destruct (shape_of v) eqn:Sv; try discriminate.
      destruct (B' k' v' (or_introl eq_refl)) as [([] & E)|[(t0 & E)|(t0 & p0 & E)]]; rewrite E; try (apply IH; auto; fail).
      destruct (any_true_unknown l Bl) as [-> | ->].
      * apply (final_refl (Ok (bool_val true))); intros r H; injection H as <-; reflexivity.
      * apply (final_bool (Ok (bool_val true))); intros r H; injection H as <-; reflexivity.
Qed.

Lemma bool_elems : forall v s l, typed v -> type_of v = list_of boolt -> unmark_deep v = Val [] s l -> forall k x, In (k, x) l -> bool_item x.
Proof.
  intros v s l T E U k x J. apply typed_unmark in T. rewrite <- type_unmark_deep in E. rewrite U in T, E.
  inversion T as [| | | | |? t ? H|? t ? H|? t ? ? H|? ? H|? ? ? H]; subst; try (destruct J; fail); cbn in E; try discriminate.
  injection E as ->. destruct (H k x J) as [Tx Ex]. exact (bool_items x Tx Ex).
Qed.
Lemma bool_call_final : forall early impl v v', typed v -> type_of v = list_of boolt -> completion v v' ->
  (forall l r, impl l = Ok r -> type_of r = boolt) ->
  (forall l l', pairs completes l l' -> (forall k v, In (k, v) l -> bool_item v) -> (forall k v, In (k, v) l' -> bool_item v) ->
     final (no_panic (impl l)) (no_panic (impl l'))) ->
  let f := mkFunc [plain_param (list_of boolt)] None (static boolt)
         (fun args _ => match args with [v] => do l <- iterate v; impl l | _ => bad_args end) in
  final (call early f [v]) (call early f [v']).
Proof.
  intros early impl v v' T E C Ti Fi f. assert (D : fixed v) by (unfold fixed; rewrite E; reflexivity).
  apply final_call.
  - repeat constructor.
  - repeat constructor; [apply C|exact D].
  - cbn. rewrite (known_top _ (proj2 (proj2 C))). reflexivity.
  - reflexivity.
  - intros t r Et H. injection Et as <-. cbn [map] in H. destruct (iterate (unmark_deep v')); try discriminate. cbn [bindr] in H. rewrite (Ti _ _ H). reflexivity.
  - intros t Et U. injection Et as <-. cbn [map existsb] in *. apply orb_false_iff in U. destruct U as [U _]. apply negb_false_iff in U.
    destruct (unmarked _ _ (proj1 C) U) as (s & l & l' & E1 & E1' & Es). rewrite E1, E1'.
    assert (E' : type_of v' = list_of boolt) by (rewrite (completes_type _ _ (proj1 C) D); exact E).
    pose proof (completes_unmark _ _ (proj1 C)) as Cu. rewrite E1, E1' in Cu. apply completes_inv in Cu.
    destruct Cu as [(t & p & E2 & _)|[(ms' & l0 & E2 & _ & _ & F)|(ms' & t & l0 & E2 & E3 & _)]].
    + rewrite E2 in Es. unfold is_known in U. rewrite <- Es in U. discriminate.
    + injection E2 as <- <-. specialize (Fi l l' F (bool_elems v s l T E E1) (bool_elems v' s l' (proj1 (proj2 C)) E' E1')).
      destruct s; cbn [iterate bindr]; try (cbn; eauto; fail); exact Fi.
    + exfalso. rewrite <- (type_unmark_deep v), E1, E3 in E. discriminate.
Qed.

Lemma strings_result : forall m, wholly_known (Val [] (SMap (list_of str)) (map (fun kl => (fst kl, strings_val (snd kl))) m)) = true.
Proof. intro m. exact (string_map_known _ _ _ m (strings_val_map m)). Qed.
Lemma transpose_call_final : forall early v v', fixed v -> completion v v' ->
  final (call early transpose_func [v]) (call early transpose_func [v']).
Proof.
  intros early v v' D C. unfold transpose_func. apply final_call.
  - repeat constructor.
  - repeat constructor; [apply C|exact D].
  - cbn. rewrite (known_top _ (proj2 (proj2 C))). reflexivity.
  - reflexivity.
  - intros t r Et H. injection Et as <-. cbn [map] in H. destruct (negb _); [injection H as <-; reflexivity|].
    destruct (iterate (unmark_deep v')) as [x|?|?]; try discriminate. cbn [bindr] in H. destruct (transpose_loop x []); try discriminate. cbn [bindr] in H. injection H as <-. reflexivity.
  - intros t Et U. injection Et as <-. cbn [map existsb] in *. rewrite !known_unmark.
    destruct (wholly_known v) eqn:W.
    + rewrite (proj2 (proj2 C)), (completes_known _ _ (proj1 C) W). cbn [negb]. apply final_refl. intros r H.
      destruct (iterate (unmark_deep v)) as [x|?|?]; try discriminate. cbn [bindr] in H. destruct (transpose_loop x []); try discriminate. cbn [bindr] in H. injection H as <-.
      apply strings_result.
    + cbn [negb]. apply final_unknown; [|apply no_panic_not]. rewrite (proj2 (proj2 C)). cbn [negb]. intros r H. apply (proj1 (no_panic_Ok _ _ _)) in H.
      destruct (iterate (unmark_deep v')) as [x|?|?]; try discriminate. cbn [bindr] in H. destruct (transpose_loop x []); try discriminate. cbn [bindr] in H. injection H as <-. reflexivity.
Qed.

(* one *)
Definition one_type (v : value) : result ty :=
  match type_of v with
  | Ty KList l | Ty KSet l => Ok (element_type (type_of v))
  | Ty KTuple [] => Ok dyn
  | Ty KTuple [(_, t)] => Ok t
  | _ => one_error
  end.
Definition one_of (v : value) (t : ty) : result value :=
  match shape_of v with
  | SList _ | SSet _ | STuple =>
    match shape_of (length_val v) with
    | SUnknown _ _ => Ok (unknown t)
    | _ => match elems v with [] => Ok (plain (SNull t)) | [(_, x)] => Ok x | _ => one_error end
    end
  | _ => one_error
  end.
Lemma one_of_type : forall v t r, typed v -> one_type v = Ok t -> one_of v t = Ok r -> conforms (type_of r) t = true.
Proof.
  intros v t r T Et H. unfold one_type, one_of in *. destruct T as [ms t0 p|ms t0|ms s|ms n|ms b|ms t0 l Hl|ms t0 l Hl|ms t0 l _ Hl|ms l Hl|ms l _ Hl]; cbn in Et, H; try discriminate.
  - injection Et as <-. destruct l as [|[k x] [|]]; try discriminate; injection H as <-; [apply conforms_refl|].
    destruct (Hl k x (or_introl eq_refl)) as [_ ->]. apply conforms_refl.
  - injection Et as <-. unfold length_val in H. cbn [shape_of elems] in H. destruct (negb _ && _); cbn in H; [injection H as <-; apply conforms_refl|].
    destruct l as [|[k x] [|]]; try discriminate; injection H as <-; [apply conforms_refl|].
    destruct (Hl k x (or_introl eq_refl)) as [_ ->]. apply conforms_refl.
  - destruct l as [|[k x] [|]]; try discriminate; injection H as <-; injection Et as <-; apply conforms_refl.
Qed.
Lemma one_of_final : forall v v' t, completion v v' -> one_type v' = Ok t -> is_known v = true ->
  final (no_panic (one_of v t)) (no_panic (one_of v' t)).
Proof.
  intros [ms s l] v' t (C & T' & W') Et U. pose proof (fun r => one_of_type v' t r T' Et) as Ty. unfold one_of in *.
  apply completes_inv in C. destruct C as [(t0 & p & -> & _)|[(ms' & l' & -> & _ & K & F)|(ms' & t0 & l' & -> & -> & K & L & N & R)]].
  - discriminate.
  - cbn [shape_of elems]. assert (G : final
      (no_panic (match l with [] => Ok (plain (SNull t)) | [(_, x)] => Ok x | _ => one_error end))
      (no_panic (match l' with [] => Ok (plain (SNull t)) | [(_, x)] => Ok x | _ => one_error end))).
    { destruct F as [|[k x] [k' x'] l l' [_ X] F]; [apply (final_refl (Ok (plain (SNull t)))); intros r H; injection H as <-; reflexivity|].
      destruct F as [|? ? l l' _ F]; [|eexists; reflexivity]. cbn. left. exists x'. split; [reflexivity|exact X]. }
    destruct s; try (eexists; reflexivity); try exact G.
    unfold length_val. cbn [shape_of elems]. rewrite (K t0 eq_refl), W'. exact G.
  - unfold length_val in *. cbn [shape_of elems] in *. rewrite W' in *. rewrite K. cbn [negb andb] in *.
    destruct (Nat.ltb 1 (List.length l)) eqn:L1; cbn [shape_of] in *.
    + apply final_unknown; [|apply no_panic_not]. intros r H. exact (Ty r (proj1 (no_panic_Ok _ _ _) H)).
    + apply Nat.ltb_ge in L1. destruct l' as [|b [|b' l']]; [congruence| |cbn in L; lia].
      destruct (R b (or_introl eq_refl)) as (a & J & X). destruct l as [|a0 [|a1 l]]; [destruct J| |cbn in L1; lia].
      destruct J as [->|[]]. destruct a as [k x], b as [k' x']. cbn. left. exists x'. split; [reflexivity|exact X].
Qed.
Lemma one_call_final : forall early v v', fixed v -> completion v v' -> final (call early one_func [v]) (call early one_func [v']).
Proof.
  intros early v v' D C. pose proof (completes_type _ _ (proj1 C) D) as E. unfold one_func.
  assert (E' : type_of (unmark_deep v') = type_of (unmark_deep v)) by (rewrite !type_unmark_deep; exact E).
  apply final_call.
  - repeat constructor.
  - repeat constructor; [apply C|exact D].
  - cbn. rewrite (known_top _ (proj2 (proj2 C))). reflexivity.
  - cbn [map]. rewrite E'. reflexivity.
  - cbn [map]. intros t r Et. apply (one_of_type _ t r (typed_unmark _ (proj1 (proj2 C)))). unfold one_type. rewrite E'. exact Et.
  - cbn [map existsb]. intros t Et U. apply orb_false_iff in U. destruct U as [U _]. apply negb_false_iff in U.
    apply (one_of_final _ _ t (completion_unmark _ _ C)).
    + unfold one_type. rewrite E'. exact Et.
    + unfold is_known. rewrite shape_unmark_deep. exact U.
Qed.

(* length *)
Variable graphemes : string -> Z.
Definition length_of (v : value) : result value :=
  match kind_of (type_of v) with
  | KDyn => Ok (with_marks (marks_of v) (unknown numt))
  | KTuple | KObj => Ok (with_marks (marks_of v) (num_val (int_val (Z.of_nat (List.length (ty_args (type_of v)))))))
  | KStr => match shape_of v with
            | SStr s => Ok (with_marks (marks_of v) (num_val (int_val (graphemes s))))
            | _ => Ok (with_marks (marks_of v) (unknown numt))
            end
  | KList | KSet | KMap => Ok (length_val v)
  | _ => Err "argument must be a string, a collection type, or a structural type"
  end.
Lemma length_val_shape : forall v, shape_of (length_val v) = SUnknown numt "" \/ shape_of (length_val v) = SNum (int_val (Z.of_nat (List.length (elems v)))).
Proof. intros [ms s l]. unfold length_val. destruct s; cbn [shape_of elems]; auto. destruct (_ && _); auto. Qed.
Lemma length_val_elems : forall v, elems (length_val v) = [].
Proof. intros [ms s l]. unfold length_val. destruct s; cbn [shape_of elems]; auto. destruct (_ && _); auto. Qed.
Lemma completes_num : forall v v', shape_of v = shape_of v' -> elems v = [] -> elems v' = [] -> (exists n, shape_of v = SNum n) -> completes v v'.
Proof. intros [ms s l] [ms' s' l'] E L L' (n & En). cbn in *. subst. apply cp_same; try discriminate. constructor. Qed.
Lemma length_of_final : forall v v', fixed v -> completion v v' -> final (length_of v) (length_of v').
Proof.
  intros v v' D (C & T & W). pose proof (completes_type _ _ C D) as E. unfold length_of. rewrite E.
  assert (G : final (Ok (length_val v)) (Ok (length_val v'))).
  { cbn [final]. left. eexists. split; [reflexivity|]. destruct (length_val_shape v) as [U|K].
    - destruct (length_val v) as [ms s l] eqn:Ev. cbn in U. subst s. assert (l = []) as -> by (pose proof (length_val_elems v) as L; rewrite Ev in L; exact L).
      apply cp_unknown; [|intros [|]; reflexivity]. destruct (length_val v') as [ms' s' l'] eqn:Ev'.
      destruct (length_val_shape v') as [U'|U']; rewrite Ev' in U'; cbn in U'; subst s'; reflexivity.
    - apply completes_num; [|apply length_val_elems|apply length_val_elems|eauto]. rewrite K. symmetry.
      destruct v as [ms s l]. unfold length_val in K. cbn [shape_of] in K. apply completes_inv in C.
      destruct C as [(t & p & -> & _)|[(ms' & l' & -> & _ & Kw & F)|(ms' & t & l' & -> & -> & Kw & L & N & R)]]; [discriminate| |].
      + cbn [elems]. rewrite (pairs_length _ _ _ F). unfold length_val. cbn [shape_of elems marks_of]. destruct s; try reflexivity; [discriminate|].
        rewrite W. reflexivity.
      + rewrite Kw in K. cbn [negb andb elems] in K. destruct (Nat.ltb 1 (List.length l)) eqn:L1; [discriminate|]. apply Nat.ltb_ge in L1.
        unfold length_val. cbn [shape_of elems marks_of]. rewrite W. cbn [negb andb shape_of].
        replace (List.length l') with (List.length l); [reflexivity|]. destruct l'; [congruence|]. destruct l as [|? []]; cbn in *; lia. }
  destruct (kind_of (type_of v)) eqn:Kt; try exact G; try (cbn; eauto; fail).
  - cbn [final]. left. eexists. split; [reflexivity|]. apply completes_with, completes_unknown. reflexivity.
  - destruct (is_known v) eqn:K.
    + rewrite (completes_shape _ _ C K). unfold is_known in K. destruct (shape_of v); try discriminate;
        cbn [final]; left; eexists; (split; [reflexivity|]); apply completes_with; try (apply completes_unknown; reflexivity); apply completes_refl; reflexivity.
    + unfold is_known in K. destruct (shape_of v); try discriminate. destruct (shape_of v');
        cbn [final]; left; eexists; (split; [reflexivity|]); apply completes_with, completes_unknown; reflexivity.
  - cbn [final]. left. eexists. split; [reflexivity|]. apply completes_with, completes_refl. reflexivity.
  - cbn [final]. left. eexists. split; [reflexivity|]. apply completes_with, completes_refl. reflexivity.
Qed.
Lemma length_call : forall early v, fixed v -> is_null v = false ->
  call early (length_func graphemes) [v] = (do r <- length_of v; Ok (with_marks [] r)).
Proof.
  intros early v D N. assert (Kd : kind_eqb (kind_of (type_of v)) KDyn = false) by (apply not_dyn; exact D).
  unfold call, length_func. cbn [f_params f_var pair_args check_args p_null p_dyn p_type negb f_type f_impl map existsb flat_map].
  rewrite N, Kd, conforms_dyn. unfold seen, unknown_arg, taken_marks. cbn [fst snd p_marked p_unknown negb orb andb bindr]. rewrite !andb_false_r.
  cbn [orb app]. unfold length_of. destruct (kind_of (type_of v)); try reflexivity. destruct (shape_of v); reflexivity.
Qed.
Lemma length_call_final : forall early v v', fixed v -> completion v v' -> is_null v' = false ->
  final (call early (length_func graphemes) [v]) (call early (length_func graphemes) [v']).
Proof.
  intros early v v' D C N'. pose proof (completes_type _ _ (proj1 C) D) as E.
  assert (N : is_null v = false).
  { destruct (is_null v) eqn:N; [|reflexivity]. assert (K : is_known v = true) by (unfold is_null, is_known in *; destruct (shape_of v); congruence).
    unfold is_null in *. rewrite (completes_shape _ _ (proj1 C) K) in N'. congruence. }
  assert (D' : fixed v') by (unfold fixed; rewrite E; exact D).
  rewrite !length_call by assumption. apply final_with, length_of_final; assumption.
Qed.

(* coalesce *)
Variable unify : list ty -> option ty.
Hypothesis Hc : convert_final convert.
Lemma coalesce_type : forall t args r, coalesce convert t args = Ok r -> conforms (type_of r) t = true.
Proof.
  intros t args r. induction args as [|a args IH]; cbn [coalesce]; [discriminate|].
  destruct (convert a t) as [v|e|e] eqn:E; try discriminate. pose proof (proj2 Hc _ _ _ E) as Tv.
  destruct (negb (is_known v)); [intro H; injection H as <-; apply conforms_refl|]. destruct (is_null v); [exact IH|].
  destruct (shape_of v) as [| |[|]| | | | | | |]; try (intro H; injection H as <-; exact Tv).
  destruct (ty_eqb t str); [exact IH|]. intro H. injection H as <-. exact Tv.
Qed.
Lemma coalesce_final : forall t args args', Forall2 completion args args' ->
  final (no_panic (coalesce convert t args)) (no_panic (coalesce convert t args')).
Proof.
  intros t args args' F. induction F as [|a a' args args' C F IH]; [cbn; eauto|].
  pose proof (proj1 Hc a a' t C) as H. pose proof (coalesce_type t (a' :: args')) as Ty.
  cbn [coalesce] in *. destruct (convert a t) as [v|e|e]; cbn [final] in H; [|destruct H as (e' & ->); cbn; eauto|destruct H].
  destruct (is_known v) eqn:K; cbn [negb].
  - destruct H as [(v' & -> & X)|(K' & _)]; [|congruence].
    pose proof (completes_shape _ _ X K) as Sh. unfold is_known, is_null. rewrite Sh. unfold is_known in K.
    assert (G : final (no_panic (Ok v)) (no_panic (Ok v'))) by (cbn; left; eauto).
    destruct (shape_of v) as [| |[|]| | | | | | |]; try discriminate; cbn [negb]; try exact G; [exact IH|].
    destruct (ty_eqb t str); [exact IH|exact G].
  - apply final_unknown; [|apply no_panic_not]. intros r E. apply (proj1 (no_panic_Ok _ _ _)) in E. exact (Ty r E).
Qed.
Lemma types_unmark : forall args, map type_of (map unmark_deep args) = map type_of args.
Proof. intro args. rewrite map_map. apply map_ext. intro v. apply type_unmark_deep. Qed.
Lemma coalesce_call_final : forall early args args',
  Forall2 (fun v v' => completion v v' /\ type_of v' = type_of v) args args' ->
  final (call early (coalesce_func unify convert) args) (call early (coalesce_func unify convert) args').
Proof.
  intros early args args' F. unfold call, coalesce_func. cbn [f_params f_var f_type f_impl]. rewrite !pair_var, !all_checked, !all_known. cbn [bindr].
  rewrite !all_seen, !types_unmark.
  assert (E : map type_of args' = map type_of args) by (induction F as [|? ? ? ? [_ E] F IH]; cbn; congruence). rewrite E.
  destruct (unify (map type_of args)) as [t|]; cbn [no_panic bindr]; [|cbn; eauto].
  apply final_with, coalesce_final. clear E. induction F as [|? ? ? ? [C _] F IH]; constructor; [apply completion_unmark; exact C|exact IH].
Qed.

(* lookup, without a default *)
Variable quoted : string -> string.
Lemma pairs_lookup : forall R l l' k, pairs R l l' ->
  (lookup k l = None /\ lookup k l' = None) \/ exists v v', lookup k l = Some v /\ lookup k l' = Some v' /\ R v v'.
Proof.
  intros R l l' k F. induction F as [|[a x] [b y] l l' [E X] F IH]; [left; auto|]. cbn [fst snd lookup] in *. subst b.
  destruct (eq_dec k a); [right; eauto|exact IH].
Qed.
Lemma lookup_call2 : forall early m k, fixed m -> type_of k = str -> is_null m = false -> is_null k = false ->
  call early (lookup_func convert quoted) [m; k]
  = (do t <- no_panic (lookup_type convert quoted [m; k]);
     if negb (is_known m) || negb (is_known k)
     then Ok (with_marks (early [(mkParam dyn false false false true, m); (mkParam str false false false true, k)]) (unknown t))
     else do r <- no_panic (lookup_impl convert quoted [m; k] t); Ok (with_marks [] r)).
Proof.
  intros early m k D Tk N N'. assert (Kd : kind_eqb (kind_of (type_of m)) KDyn = false) by (apply not_dyn; exact D).
  unfold call, lookup_func. cbn [f_params f_var pair_args check_args p_null p_dyn p_type negb f_type f_impl map existsb flat_map].
  rewrite N, N', Kd, conforms_dyn, Tk. unfold seen, unknown_arg, taken_marks. cbn [fst snd p_marked p_unknown negb orb andb bindr kind_of str kind_eqb].
  change (conforms (Ty KStr []) (Ty KStr [])) with true. cbn [negb bindr]. rewrite !andb_true_r, orb_false_r. reflexivity.
Qed.
Lemma lookup_null : forall early m k, fixed m -> type_of k = str -> is_null m = true \/ is_null k = true ->
  exists e, call early (lookup_func convert quoted) [m; k] = Err e.
Proof.
  intros early m k D Tk N. assert (Kd : kind_eqb (kind_of (type_of m)) KDyn = false) by (apply not_dyn; exact D).
  unfold call, lookup_func. cbn [f_params f_var pair_args check_args p_null p_dyn p_type negb f_type f_impl map existsb flat_map].
  rewrite Kd, conforms_dyn, Tk. destruct (is_null m); [eexists; reflexivity|]. cbn [andb negb]. destruct (is_null k); [eexists; reflexivity|].
  destruct N; discriminate.
Qed.
Lemma null_known : forall v v', completes v v' -> is_null v = true -> is_null v' = true.
Proof.
  intros v v' C N. assert (K : is_known v = true) by (unfold is_null, is_known in *; destruct (shape_of v); congruence).
  unfold is_null in *. rewrite (completes_shape _ _ C K). exact N.
Qed.
Lemma text_shape : forall k, type_of k = str -> is_null k = false -> is_known k = true -> exists ms s l, k = Val ms (SStr s) l.
Proof. intros [ms s l] T N K. destruct s; try discriminate. eauto. Qed.
Lemma lookup_type_final : forall m m' k k' t, typed m' -> fixed m -> completes m m' -> type_of k = str -> completes k k' -> is_null k' = false -> is_known k' = true ->
  is_null k = false -> is_null m' = false -> is_known m' = true ->
  lookup_type convert quoted [m; k] = Ok t ->
  (exists e, lookup_type convert quoted [m'; k'] = Err e) \/ exists t', lookup_type convert quoted [m'; k'] = Ok t' /\ (t = t' \/ (t = dyn /\ is_known k = false)) /\
    forall r, lookup_impl convert quoted [m'; k'] t' = Ok r -> conforms (type_of r) t' = true.
Proof.
  intros m m' k k' t Tm D C Tk Ck Nk' Kk' Nk Nm' Km' E.
  assert (Tk' : type_of k' = str) by (rewrite (completes_type k k' Ck); [exact Tk|unfold fixed; rewrite Tk; reflexivity]).
  destruct (text_shape k' Tk' Nk' Kk') as (mk & key & lk & ->).
  pose proof (completes_type _ _ C D) as Et. unfold lookup_type in *. cbn [List.length Nat.ltb Nat.leb] in *. rewrite Et.
  destruct (kind_of (type_of m)) eqn:Km; try discriminate.
  - injection E as <-. right. eexists. split; [reflexivity|]. split; [auto|]. intros r H. unfold lookup_impl in H. cbn [as_string unmark bindr] in H.
    rewrite <- Et in Km |- *. destruct Tm as [| | | | |ms0 t0 l0 Hl|ms0 t0 l0 Hl|ms0 t0 l0 Nd Hl|ms0 l0 Hl|ms0 l0 Nd Hl]; try discriminate.
    cbn [shape_of elems] in H. destruct (lookup key l0) as [v|] eqn:L; [|discriminate]. injection H as <-. rewrite type_with.
    destruct (Hl key v (lookup_In _ _ _ L)) as [_ ->]. apply conforms_refl.
  - cbn [shape_of]. rewrite <- Et in Km. destruct Tm as [| | | | |ms0 t0 l0 Hl|ms0 t0 l0 Hl|ms0 t0 l0 Nd Hl|ms0 l0 Hl|ms0 l0 Nd Hl]; try discriminate.
    rewrite <- Et in E |- *. rewrite obj_type_lookup. destruct (lookup key l0) as [v|] eqn:L; cbn [option_map] in *; [|left; eauto].
    right. eexists. split; [reflexivity|]. split.
    + destruct (is_known k) eqn:Kk.
      * destruct (text_shape k Tk Nk Kk) as (mk0 & key0 & lk0 & ->). pose proof (completes_shape _ _ Ck Kk) as Sh. cbn in Sh. injection Sh as <-.
        cbn [shape_of] in E. rewrite obj_type_lookup, L in E. cbn in E. left. congruence.
      * unfold is_known in Kk. destruct (shape_of k); try discriminate. right. split; congruence.
    + intros r H. unfold lookup_impl in H. cbn [as_string unmark bindr shape_of elems] in H. rewrite L in H. injection H as <-. rewrite type_with. apply conforms_refl.
Qed.
Lemma lookup_err_final : forall m m' k k' e, typed m' -> fixed m -> completes m m' -> type_of k = str -> completes k k' ->
  no_panic (lookup_type convert quoted [m; k]) = Err e -> exists e', no_panic (lookup_type convert quoted [m'; k']) = Err e'.
Proof.
  intros m m' k k' e Tm D C Tk Ck E. unfold lookup_type in *. cbn [List.length Nat.ltb Nat.leb] in *. rewrite (completes_type _ _ C D).
  destruct (kind_of (type_of m)); try (eexists; reflexivity); [discriminate|].
  destruct (is_known k) eqn:Kk.
  - rewrite (completes_shape _ _ Ck Kk). destruct (shape_of k); try discriminate; eauto.
  - unfold is_known in Kk. destruct (shape_of k); discriminate.
Qed.
Lemma lookup_impl_final : forall m m' k k' t, completes m m' -> completes k k' -> wholly_known m' = true -> is_known m = true -> is_known k = true ->
  final (no_panic (lookup_impl convert quoted [m; k] t)) (no_panic (lookup_impl convert quoted [m'; k'] t)).
Proof.
  intros [ms s l] m' k k' t C Ck W Km Kk. pose proof (completes_shape _ _ Ck Kk) as Sk.
  destruct k as [mk sk lk], k' as [mk' sk' lk']. cbn in Sk. subst sk'. unfold lookup_impl. cbn [unmark].
  destruct (as_string (Val [] sk lk)) as [key|e|e] eqn:A; destruct sk; try discriminate; cbn [as_string bindr no_panic]; try (cbn; eauto; fail).
  cbn in A. injection A as ->.
  apply completes_inv in C. destruct C as [(t0 & p & -> & _)|[(ms' & l' & -> & _ & _ & F)|(ms' & t0 & l' & -> & -> & _)]]; [discriminate| |cbn; eauto].
  cbn [shape_of elems marks_of].
  assert (G : final (no_panic match lookup key l with Some v => Ok (with_marks (union ms mk) v) | None => Err ("lookup failed to find key " +++ redact quoted key mk) end)
    (no_panic match lookup key l' with Some v => Ok (with_marks (union ms' mk') v) | None => Err ("lookup failed to find key " +++ redact quoted key mk') end)).
  { destruct (pairs_lookup _ _ _ key F) as [(-> & ->)|(v & v' & -> & -> & X)]; [cbn; eauto|]. cbn. left. eexists. split; [reflexivity|]. apply completes_with. exact X. }
  destruct s; try discriminate; try (cbn; eauto; fail); exact G.
Qed.
Lemma lookup_call_final : forall early m m' k k', fixed m -> completion m m' -> type_of k = str -> completion k k' ->
  final (call early (lookup_func convert quoted) [m; k]) (call early (lookup_func convert quoted) [m'; k']).
Proof.
  intros early m m' k k' D (C & Tm & W) Tk (Ck & Tk0 & Wk).
  assert (Dk : fixed k) by (unfold fixed; rewrite Tk; reflexivity).
  assert (Tk' : type_of k' = str) by (rewrite (completes_type k k' Ck Dk); exact Tk).
  assert (D' : fixed m') by (unfold fixed; rewrite (completes_type _ _ C D); exact D).
  destruct (is_null m) eqn:N1.
  { destruct (lookup_null early m k D Tk (or_introl N1)) as (e & ->). exact (lookup_null early m' k' D' Tk' (or_introl (null_known _ _ C N1))). }
  destruct (is_null k) eqn:N2.
  { destruct (lookup_null early m k D Tk (or_intror N2)) as (e & ->). exact (lookup_null early m' k' D' Tk' (or_intror (null_known _ _ Ck N2))). }
  rewrite (lookup_call2 early m k D Tk N1 N2).
  destruct (no_panic (lookup_type convert quoted [m; k])) as [t|e|e] eqn:Et.
  2:{ cbn [bindr final]. destruct (is_null m') eqn:N3; [exact (lookup_null early m' k' D' Tk' (or_introl N3))|].
      destruct (is_null k') eqn:N4; [exact (lookup_null early m' k' D' Tk' (or_intror N4))|].
      rewrite (lookup_call2 early m' k' D' Tk' N3 N4). destruct (lookup_err_final _ _ _ _ e Tm D C Tk Ck Et) as (e' & ->). cbn. eauto. }
  2:{ exfalso. exact (no_panic_not _ _ _ Et). }
  apply (proj1 (no_panic_Ok _ _ _)) in Et. cbn [bindr].
  assert (Un : forall r, negb (is_known m) || negb (is_known k) = true -> (exists e, r = Err e) ->
    final (if negb (is_known m) || negb (is_known k)
      then Ok (with_marks (early [(mkParam dyn false false false true, m); (mkParam str false false false true, k)]) (unknown t))
      else do r <- no_panic (lookup_impl convert quoted [m; k] t); Ok (with_marks [] r)) r).
  { intros r U (e & ->). rewrite U. right. split; [unfold is_known; rewrite shape_with; reflexivity|eauto]. }
  assert (Nm : is_null m' = true -> negb (is_known m) || negb (is_known k) = true).
  { intro N. destruct (is_known m) eqn:K; [|reflexivity]. unfold is_null in *. rewrite (completes_shape _ _ C K) in N. congruence. }
  assert (Nk : is_null k' = true -> negb (is_known m) || negb (is_known k) = true).
  { intro N. destruct (is_known k) eqn:K; [|apply orb_true_r]. unfold is_null in *. rewrite (completes_shape _ _ Ck K) in N. congruence. }
  destruct (is_null m') eqn:N3; [apply Un; [auto|exact (lookup_null early m' k' D' Tk' (or_introl N3))]|].
  destruct (is_null k') eqn:N4; [apply Un; [auto|exact (lookup_null early m' k' D' Tk' (or_intror N4))]|].
  rewrite (lookup_call2 early m' k' D' Tk' N3 N4), (known_top _ W), (known_top _ Wk). cbn [negb orb].
  destruct (lookup_type_final m m' k k' t Tm D C Tk Ck N4 (known_top _ Wk) N2 N3 (known_top _ W) Et) as [(e & Et')|(t' & Et' & Htt & Ty)].
  - rewrite Et'. cbn [no_panic bindr]. destruct (negb (is_known m) || negb (is_known k)) eqn:U; [apply Un; eauto|].
    apply orb_false_iff in U. destruct U as [U1 U2]. apply negb_false_iff in U1, U2. exfalso.
    unfold lookup_type in *. cbn [List.length Nat.ltb Nat.leb] in *. rewrite (completes_type _ _ C D), (completes_shape _ _ Ck U2) in Et'.
    rewrite Et' in Et. discriminate.
  - rewrite Et'. cbn [no_panic bindr]. destruct (negb (is_known m) || negb (is_known k)) eqn:U.
    + apply (final_with _ _ (Ok (unknown t))). apply final_unknown; [|apply no_panic_not].
      intros r H. apply (proj1 (no_panic_Ok _ _ _)) in H. destruct Htt as [->|(-> & _)]; [exact (Ty r H)|apply conforms_dyn].
    + apply orb_false_iff in U. destruct U as [U1 U2]. apply negb_false_iff in U1, U2.
      destruct Htt as [->|(_ & Hk)]; [|congruence]. apply final_with. apply lookup_impl_final; assumption.
Qed.
End More.
