(* Invariants of the interleaving models in TreeConc.v, for every schedule. *)

From Verif Require Import Base TreeConc.

(* ---------------------------------------------------------- concurrent AddNode *)

Lemma nth_upd_thread : forall ts i j p,
  nth_error (upd_thread i p ts) j =
  if Nat.eq_dec j i then match nth_error ts j with Some t => Some (mkThread (tnm t) p) | None => None end
  else nth_error ts j.
Proof.
  induction ts as [|t ts IH]; intros i j p; simpl.
  - destruct (Nat.eq_dec j i); destruct j, i; reflexivity.
  - destruct i as [|i], j as [|j]; simpl; try reflexivity.
    rewrite IH. destruct (Nat.eq_dec j i), (Nat.eq_dec (S j) (S i)); try lia; reflexivity.
Qed.

Lemma upd_thread_names : forall ts i p, map tnm (upd_thread i p ts) = map tnm ts.
Proof. induction ts as [|t ts IH]; intros [|i] p; simpl; auto; rewrite IH; reflexivity. Qed.

Lemma cgrep_some : forall ds n c, cgrep ds n = Some c -> In (c, n) ds.
Proof.
  intros ds n c. unfold cgrep. destruct (find _ ds) as [d|] eqn:E; [|discriminate].
  intros Ec; inversion Ec; subst. apply find_some in E. destruct E as [Hin Hn].
  destruct d as [c' n']; simpl in *. destruct (string_dec n' n); [subst; exact Hin|discriminate].
Qed.

Lemma cgrep_none : forall ds n, cgrep ds n = None -> ~ In n (map snd ds).
Proof.
  intros ds n. unfold cgrep. destruct (find _ ds) as [d|] eqn:E; [discriminate|].
  intros _ Hin. apply in_map_iff in Hin. destruct Hin as [[c n'] [En Hin]]; simpl in En; subst.
  pose proof (find_none _ _ E _ Hin) as Hf; simpl in Hf. destruct (string_dec n n); congruence.
Qed.

Definition in_cs (p : pc) : Prop := match p with PHold | PAppended _ => True | _ => False end.

Record CInv (ds : list (nat * string)) (names : list string) (s : cstate) (added : list (nat * string)) : Prop := {
  ci_downs : cdowns s = ds ++ added;
  ci_ptrs : NoDup (map fst (cdowns s));
  ci_fresh : forall c n, In (c, n) (cdowns s) -> c < cnext s;
  ci_names : map tnm (cthreads s) = names;
  ci_lock : forall i t, nth_error (cthreads s) i = Some t -> in_cs (tpc t) -> clock s = Some i;
  ci_held : forall i, clock s = Some i -> exists t, nth_error (cthreads s) i = Some t /\ in_cs (tpc t);
  ci_done : forall i t c, nth_error (cthreads s) i = Some t -> tpc t = PDone c \/ tpc t = PAppended c ->
            In (c, tnm t) (cdowns s);
  ci_want : forall i t, nth_error (cthreads s) i = Some t -> tpc t = PWant \/ tpc t = PHold ->
            ~ In (tnm t) (map snd ds);
  ci_added : forall c n, In (c, n) added -> ~ In n (map snd ds) /\
             exists i t, nth_error (cthreads s) i = Some t /\ tnm t = n /\ (tpc t = PDone c \/ tpc t = PAppended c)
}.

Lemma cinit_inv : forall ds next names, NoDup (map fst ds) -> (forall c n, In (c, n) ds -> c < next) ->
  CInv ds names (cinit ds next names) [].
Proof.
  intros ds next names Hnd Hf.
  assert (Hst : forall i t, nth_error (map (fun n => mkThread n PStart) names) i = Some t -> tpc t = PStart).
  { intros i t E. apply nth_error_In in E. apply in_map_iff in E. destruct E as [n [<- _]]. reflexivity. }
  constructor; simpl; auto.
  - rewrite app_nil_r; reflexivity.
  - rewrite map_map; simpl. apply map_id.
  - intros i t E Hc. rewrite (Hst i t E) in Hc. destruct Hc.
  - discriminate.
  - intros i t c E [Hc|Hc]; rewrite (Hst i t E) in Hc; discriminate.
  - intros i t E [Hc|Hc]; rewrite (Hst i t E) in Hc; discriminate.
  - tauto.
Qed.

Lemma cstep_inv : forall ds names s added i s', CInv ds names s added -> cstep s i = Some s' ->
  exists more, CInv ds names s' (added ++ more).
Proof.
  intros ds names s added i s' HI E. unfold cstep in E.
  destruct (nth_error (cthreads s) i) as [t|] eqn:Et; [|discriminate].
  assert (Hnth : forall p j u, nth_error (upd_thread i p (cthreads s)) j = Some u ->
            (j = i /\ u = mkThread (tnm t) p) \/ (j <> i /\ nth_error (cthreads s) j = Some u)).
  { intros p j u Eu. rewrite nth_upd_thread in Eu. destruct (Nat.eq_dec j i) as [->|Hj].
    - rewrite Et in Eu. inversion Eu; auto.
    - auto. }
  assert (Hself : forall p, nth_error (upd_thread i p (cthreads s)) i = Some (mkThread (tnm t) p)).
  { intros p. rewrite nth_upd_thread. destruct (Nat.eq_dec i i); [|congruence]. rewrite Et; reflexivity. }
  assert (Hoth : forall p j, j <> i -> nth_error (upd_thread i p (cthreads s)) j = nth_error (cthreads s) j).
  { intros p j Hj. rewrite nth_upd_thread. destruct (Nat.eq_dec j i); [contradiction|reflexivity]. }
  destruct HI as [I1 I2 I3 I4 I5 I6 I7 I8 I9].
  destruct (tpc t) as [| | |c|c] eqn:Ep; [| | | |discriminate].
  - (* check *)
    destruct (cgrep (cdowns s) (tnm t)) as [c|] eqn:Eg; inversion E; subst s'; clear E; exists [];
      rewrite app_nil_r; constructor; simpl; auto; try (rewrite upd_thread_names; exact I4).
    + intros j u Eu Hc. destruct (Hnth _ _ _ Eu) as [[-> ->]|[Hj Eu']]; [destruct Hc|eauto].
    + intros j Hj. destruct (I6 j Hj) as [u [Eu Hc]]. exists u. split; [|exact Hc].
      rewrite Hoth; [exact Eu|]. intros ->. rewrite Et in Eu; inversion Eu; subst u. rewrite Ep in Hc; destruct Hc.
    + intros j u c0 Eu Hc. destruct (Hnth _ _ _ Eu) as [[-> ->]|[Hj Eu']]; [|eauto].
      simpl in *. destruct Hc as [Hc|Hc]; inversion Hc; subst. apply cgrep_some; exact Eg.
    + intros j u Eu Hc. destruct (Hnth _ _ _ Eu) as [[-> ->]|[Hj Eu']]; [|eauto].
      simpl in Hc; destruct Hc; discriminate.
    + intros c0 n Hin. destruct (I9 c0 n Hin) as [Hn [j [u [Eu [Hu Hc]]]]]. split; [exact Hn|].
      exists j, u. split; [|auto]. rewrite Hoth; [exact Eu|]. intros ->.
      rewrite Et in Eu; inversion Eu; subst u. rewrite Ep in Hc; destruct Hc; discriminate.
    + intros j u Eu Hc. destruct (Hnth _ _ _ Eu) as [[-> ->]|[Hj Eu']]; [destruct Hc|eauto].
    + intros j Hj. destruct (I6 j Hj) as [u [Eu Hc]]. exists u. split; [|exact Hc].
      rewrite Hoth; [exact Eu|]. intros ->. rewrite Et in Eu; inversion Eu; subst u. rewrite Ep in Hc; destruct Hc.
    + intros j u c0 Eu Hc. destruct (Hnth _ _ _ Eu) as [[-> ->]|[Hj Eu']]; [|eauto].
      simpl in *. destruct Hc; discriminate.
    + intros j u Eu Hc. destruct (Hnth _ _ _ Eu) as [[-> ->]|[Hj Eu']]; [|eauto].
      simpl. apply cgrep_none in Eg. rewrite I1, map_app in Eg. intros Hin; apply Eg; apply in_or_app; auto.
    + intros c0 n Hin. destruct (I9 c0 n Hin) as [Hn [j [u [Eu [Hu Hc]]]]]. split; [exact Hn|].
      exists j, u. split; [|auto]. rewrite Hoth; [exact Eu|]. intros ->.
      rewrite Et in Eu; inversion Eu; subst u. rewrite Ep in Hc; destruct Hc; discriminate.
  - (* lock *)
    destruct (clock s) as [l|] eqn:El; [discriminate|]. inversion E; subst s'; clear E. exists [].
    rewrite app_nil_r. constructor; simpl; auto; try (rewrite upd_thread_names; exact I4).
    + intros j u Eu Hc. destruct (Hnth _ _ _ Eu) as [[-> ->]|[Hj Eu']]; [reflexivity|].
      specialize (I5 j u Eu' Hc). congruence.
    + intros j Hj. inversion Hj; subst j. eexists; split; [apply Hself|]. simpl; auto.
    + intros j u c0 Eu Hc. destruct (Hnth _ _ _ Eu) as [[-> ->]|[Hj Eu']]; [|eauto].
      simpl in *. destruct Hc; discriminate.
    + intros j u Eu Hc. destruct (Hnth _ _ _ Eu) as [[-> ->]|[Hj Eu']]; [|eauto].
      simpl. apply (I8 i t Et). auto.
    + intros c0 n Hin. destruct (I9 c0 n Hin) as [Hn [j [u [Eu [Hu Hc]]]]]. split; [exact Hn|].
      exists j, u. split; [|auto]. rewrite Hoth; [exact Eu|]. intros ->.
      rewrite Et in Eu; inversion Eu; subst u. rewrite Ep in Hc; destruct Hc; discriminate.
  - (* append *)
    inversion E; subst s'; clear E. exists [(cnext s, tnm t)].
    assert (Hnew : NoDup (map fst (cdowns s ++ [(cnext s, tnm t)]))).
    { rewrite map_app; simpl. apply (Permutation_NoDup (Permutation_cons_append _ _)).
      constructor; [|exact I2]. intros Hin. apply in_map_iff in Hin. destruct Hin as [[c n] [Ec Hin]].
      simpl in Ec; subst. apply I3 in Hin. lia. }
    constructor; simpl; auto; try (rewrite upd_thread_names; exact I4).
    + rewrite I1, app_assoc; reflexivity.
    + intros c n Hin. apply in_app_or in Hin. destruct Hin as [Hin|[Hin|[]]].
      * apply I3 in Hin; lia.
      * inversion Hin; lia.
    + intros j u Eu Hc. destruct (Hnth _ _ _ Eu) as [[-> ->]|[Hj Eu']].
      * apply (I5 i t Et). rewrite Ep; simpl; auto.
      * eauto.
    + intros j Hj. destruct (Nat.eq_dec j i) as [->|Hji].
      * eexists; split; [apply Hself|]. simpl; auto.
      * destruct (I6 j Hj) as [u [Eu Hc]]. exists u. rewrite Hoth by exact Hji. auto.
    + intros j u c0 Eu Hc. apply in_or_app. destruct (Hnth _ _ _ Eu) as [[-> ->]|[Hj Eu']].
      * right. simpl in *. destruct Hc as [Hc|Hc]; inversion Hc; auto.
      * left; eauto.
    + intros j u Eu Hc. destruct (Hnth _ _ _ Eu) as [[-> ->]|[Hj Eu']]; [|eauto].
      simpl in Hc; destruct Hc; discriminate.
    + intros c0 n Hin. apply in_app_or in Hin. destruct Hin as [Hin|[Hin|[]]].
      * destruct (I9 c0 n Hin) as [Hn [j [u [Eu [Hu Hc]]]]]. split; [exact Hn|].
        exists j, u. split; [|auto]. rewrite Hoth; [exact Eu|]. intros ->.
        rewrite Et in Eu; inversion Eu; subst u. rewrite Ep in Hc; destruct Hc; discriminate.
      * inversion Hin; subst. split; [apply (I8 i t Et); auto|].
        exists i. eexists; split; [apply Hself|]. simpl; auto.
  - (* unlock *)
    inversion E; subst s'; clear E. exists []. rewrite app_nil_r.
    assert (Hl : clock s = Some i) by (apply (I5 i t Et); rewrite Ep; simpl; auto).
    constructor; simpl; auto; try (rewrite upd_thread_names; exact I4).
    + intros j u Eu Hc. destruct (Hnth _ _ _ Eu) as [[-> ->]|[Hj Eu']]; [destruct Hc|].
      specialize (I5 j u Eu' Hc). congruence.
    + discriminate.
    + intros j u c0 Eu Hc. destruct (Hnth _ _ _ Eu) as [[-> ->]|[Hj Eu']]; [|eauto].
      simpl in *. destruct Hc as [Hc|Hc]; inversion Hc; subst. apply (I7 i t c0 Et); auto.
    + intros j u Eu Hc. destruct (Hnth _ _ _ Eu) as [[-> ->]|[Hj Eu']]; [|eauto].
      simpl in Hc; destruct Hc; discriminate.
    + intros c0 n Hin. destruct (I9 c0 n Hin) as [Hn [j [u [Eu [Hu Hc]]]]]. split; [exact Hn|].
      destruct (Nat.eq_dec j i) as [->|Hji].
      * rewrite Et in Eu; inversion Eu; subst u. exists i. eexists; split; [apply Hself|]. simpl.
        split; [exact Hu|]. rewrite Ep in Hc. destruct Hc as [Hc|Hc]; inversion Hc; auto.
      * exists j, u. rewrite Hoth by exact Hji. auto.
Qed.

Lemma crun_inv : forall sched ds names s added, CInv ds names s added ->
  exists more, CInv ds names (crun s sched) (added ++ more).
Proof.
  induction sched as [|i sched IH]; intros ds names s added HI; simpl.
  - exists []; rewrite app_nil_r; exact HI.
  - destruct (cstep s i) as [s'|] eqn:E; [|apply IH; exact HI].
    destruct (cstep_inv _ _ _ _ _ _ HI E) as [m1 HI1].
    destruct (IH _ _ _ _ HI1) as [m2 HI2]. exists (m1 ++ m2). rewrite app_assoc; exact HI2.
Qed.

Lemma crun_app : forall s1 s2 s, crun s (s1 ++ s2) = crun (crun s s1) s2.
Proof. induction s1 as [|i s1 IH]; intros s2 s; simpl; [reflexivity|apply IH]. Qed.

(* Nothing is lost, for every schedule and every continuation of it. *)
Lemma concurrent_no_loss : forall ds next names sched1 sched2,
  NoDup (map fst ds) -> (forall c n, In (c, n) ds -> c < next) ->
  let s1 := crun (cinit ds next names) sched1 in
  let s2 := crun s1 sched2 in
  (* children present at the start, or at any moment, stay, in order *)
  (exists added1 added2, cdowns s1 = ds ++ added1 /\ cdowns s2 = ds ++ added1 ++ added2) /\
  (* a finished call returned a child of the right name, still a child later *)
  (forall i t c, nth_error (cthreads s1) i = Some t -> tpc t = PDone c ->
     nth_error names i = Some (tnm t) /\ In (c, tnm t) (cdowns s2)) /\
  (* no pointer occurs twice, and every new child was made by a call for its name,
     no child of that name being there at the start *)
  NoDup (map fst (cdowns s1)) /\
  (forall c n, In (c, n) (cdowns s1) -> In (c, n) ds \/ (In n names /\ ~ In n (map snd ds))).
Proof.
  intros ds next names sched1 sched2 Hnd Hf s1 s2.
  destruct (crun_inv sched1 ds names _ _ (cinit_inv ds next names Hnd Hf)) as [a1 H1].
  fold s1 in H1. simpl in H1.
  destruct (crun_inv sched2 ds names _ _ H1) as [a2 H2]. fold s2 in H2.
  split; [|split; [|split]].
  - exists a1, a2. split; [apply (ci_downs _ _ _ _ H1)|apply (ci_downs _ _ _ _ H2)].
  - intros i t c Et Ec. split.
    + rewrite <- (ci_names _ _ _ _ H1). apply map_nth_error; exact Et.
    + pose proof (ci_done _ _ _ _ H1 i t c Et (or_introl Ec)) as Hin.
      rewrite (ci_downs _ _ _ _ H1) in Hin. rewrite (ci_downs _ _ _ _ H2), app_assoc.
      apply in_or_app; left; exact Hin.
  - apply (ci_ptrs _ _ _ _ H1).
  - intros c n Hin. rewrite (ci_downs _ _ _ _ H1) in Hin. apply in_app_or in Hin.
    destruct Hin as [Hin|Hin]; [left; exact Hin|right].
    destruct (ci_added _ _ _ _ H1 c n Hin) as [Hn [i [t [Et [<- _]]]]]. split; [|exact Hn].
    rewrite <- (ci_names _ _ _ _ H1). apply in_map. eapply nth_error_In; exact Et.
Qed.

(* The mutex does its job: never two goroutines in the critical section, and the
   system never deadlocks. *)
Lemma concurrent_mutex : forall ds next names sched i j t u,
  NoDup (map fst ds) -> (forall c n, In (c, n) ds -> c < next) ->
  let s := crun (cinit ds next names) sched in
  nth_error (cthreads s) i = Some t -> nth_error (cthreads s) j = Some u ->
  in_cs (tpc t) -> in_cs (tpc u) -> i = j.
Proof.
  intros ds next names sched i j t u Hnd Hf s Et Eu Ht Hu.
  destruct (crun_inv sched ds names _ _ (cinit_inv ds next names Hnd Hf)) as [a H]. fold s in H.
  pose proof (ci_lock _ _ _ _ H i t Et Ht). pose proof (ci_lock _ _ _ _ H j u Eu Hu). congruence.
Qed.

Lemma concurrent_progress : forall ds next names sched i t,
  NoDup (map fst ds) -> (forall c n, In (c, n) ds -> c < next) ->
  let s := crun (cinit ds next names) sched in
  nth_error (cthreads s) i = Some t -> (forall c, tpc t <> PDone c) ->
  exists j s', cstep s j = Some s'.
Proof.
  intros ds next names sched i t Hnd Hf s Et Hnd'.
  destruct (crun_inv sched ds names _ _ (cinit_inv ds next names Hnd Hf)) as [a H]. fold s in H.
  destruct (clock s) as [l|] eqn:El.
  - destruct (ci_held _ _ _ _ H l El) as [u [Eu Hc]]. exists l. unfold cstep. rewrite Eu.
    destruct (tpc u); try destruct Hc; eauto.
  - exists i. unfold cstep. rewrite Et, El. destruct (tpc t) as [| | |c|c] eqn:Ep; eauto.
    + destruct (cgrep _ _); eauto.
    + exfalso; apply (Hnd' c eq_refl).
Qed.

Lemma NoDup_nth_names : forall (l : list string) i j x, NoDup l ->
  nth_error l i = Some x -> nth_error l j = Some x -> i = j.
Proof.
  intros l i j x Hnd Ei Ej. eapply (proj1 (NoDup_nth_error l) Hnd).
  - apply nth_error_Some; congruence.
  - congruence.
Qed.

Lemma added_names_unique : forall (ts : list thread) (l : list (nat * string)),
  NoDup (map tnm ts) -> NoDup (map fst l) ->
  (forall c n, In (c, n) l -> exists i t, nth_error ts i = Some t /\ tnm t = n /\ (tpc t = PDone c \/ tpc t = PAppended c)) ->
  NoDup (map snd l).
Proof.
  intros ts l Hu; induction l as [|[c n] l IH]; simpl; intros Hp Hall; [constructor|].
  inversion Hp as [|? ? Hnot Hp']; subst. constructor; [|apply IH; auto].
  intros Hin. apply in_map_iff in Hin. destruct Hin as [[c' n'] [En Hin]]; simpl in En; subst n'.
  destruct (Hall c n (or_introl eq_refl)) as [i [t [Et [Hn Hc]]]].
  destruct (Hall c' n (or_intror Hin)) as [j [u [Eu [Hn' Hc']]]].
  assert (i = j).
  { apply (NoDup_nth_names (map tnm ts) i j n Hu); [rewrite <- Hn|rewrite <- Hn']; apply map_nth_error; assumption. }
  subst j. rewrite Et in Eu; inversion Eu; subst u.
  assert (c = c') by (destruct Hc as [Hc|Hc], Hc' as [Hc'|Hc']; congruence).
  subst c'. apply Hnot. apply (in_map fst) in Hin. exact Hin.
Qed.

(* If the goroutines add pairwise different names, names stay unique. *)
Lemma concurrent_unique_if_distinct : forall ds next names sched,
  NoDup (map fst ds) -> (forall c n, In (c, n) ds -> c < next) ->
  NoDup (map snd ds) -> NoDup names ->
  NoDup (map snd (cdowns (crun (cinit ds next names) sched))).
Proof.
  intros ds next names sched Hnd Hf Hns Hnn.
  destruct (crun_inv sched ds names _ _ (cinit_inv ds next names Hnd Hf)) as [a H]. simpl in H.
  set (s := crun (cinit ds next names) sched) in *.
  rewrite (ci_downs _ _ _ _ H), map_app.
  pose proof (ci_ptrs _ _ _ _ H) as Hp. rewrite (ci_downs _ _ _ _ H), map_app in Hp.
  assert (Ha : NoDup (map snd a)).
  { apply (added_names_unique (cthreads s)).
    - rewrite (ci_names _ _ _ _ H); exact Hnn.
    - clear -Hp; induction (map fst ds); simpl in Hp; [exact Hp|inversion Hp; auto].
    - intros c n Hin; apply (ci_added _ _ _ _ H c n Hin). }
  assert (Hd : forall n, In n (map snd ds) -> In n (map snd a) -> False).
  { intros n H1 H2. apply in_map_iff in H2. destruct H2 as [[c n'] [En Hin]]; simpl in En; subst n'.
    destruct (ci_added _ _ _ _ H c n Hin) as [Hno _]. contradiction. }
  clear -Hns Ha Hd. induction (map snd ds) as [|x l IH]; simpl; [exact Ha|].
  inversion Hns; subst. constructor.
  - intros Hin. apply in_app_or in Hin. destruct Hin; [contradiction|]. apply (Hd x); [left; reflexivity|assumption].
  - apply IH; [assumption|]. intros n H1' H2'. apply (Hd n); [right; exact H1'|exact H2'].
Qed.

(* ------------------------------------------------- lookup concurrent with delete *)

Lemma nth_set_at : forall A (l : list A) i j x,
  nth_error (set_at i x l) j = if Nat.eq_dec j i then (if j <? length l then Some x else None) else nth_error l j.
Proof.
  intros A l; induction l as [|y l IH]; intros i j x; simpl.
  - destruct (Nat.eq_dec j i); destruct j, i; reflexivity.
  - destruct i as [|i], j as [|j]; simpl; try reflexivity. rewrite IH.
    destruct (Nat.eq_dec j i), (Nat.eq_dec (S j) (S i)); try lia; [|reflexivity].
    change (S j <? S (length l)) with (j <? length l). reflexivity.
Qed.

(* The deleter never disturbs what lies before the first child of the deleted name. *)
Record DInv (ds : list (nat * string)) (del tgt : string) (d k c : nat) (s : dstate) : Prop := {
  di_pre : forall i, i < d -> nth_error (darr s) i = nth_error ds i;
  di_del : ddel s = del;
  di_tgt : dtgt s = tgt;
  di_pcD : match dpcD s with
           | DFind j => j <= d /\ darr s = ds /\ dlen s = length ds
           | DShift j => d <= j
           | _ => True
           end;
  di_pcR : match dpcR s with RScan len j => len = length ds /\ j <= k | RFound c' => c' = c | RMissed => False end
}.

Lemma DInv_step : forall ds del tgt k c d,
  nth_error ds k = Some (c, tgt) ->
  (forall i c', nth_error ds i = Some (c', tgt) -> i = k) ->
  k < d -> (forall i c', i < d -> nth_error ds i = Some (c', del) -> False) ->
  ((exists cd, nth_error ds d = Some (cd, del)) \/ d = length ds) ->
  forall b s, DInv ds del tgt d k c s -> DInv ds del tgt d k c (if b : bool then step_deleter s else step_reader s).
Proof.
  intros ds del tgt k c d Hk Huniq Hkd Hdel Hd b s [H1 H2 H3 H5 H6]. destruct b.
  - unfold step_deleter. destruct (dpcD s) as [j|j| |] eqn:Ep.
    + destruct H5 as [Hj [Harr Hlen]]. destruct (Nat.ltb_spec j (dlen s)) as [Hlt|Hlt].
      * destruct (nth_error (darr s) j) as [[c' n]|] eqn:En.
        { destruct (string_dec n (ddel s)) as [E|E].
          - assert (Hjd : j = d).
            { destruct (Nat.eq_dec j d) as [e|e]; [exact e|]. exfalso. assert (Hl : j < d) by lia.
              rewrite (H1 j Hl) in En. apply (Hdel j c' Hl). congruence. }
            subst j. constructor; cbn [darr dlen ddel dpcD dtgt dpcR]; auto. destruct (S d =? dlen s); auto.
          - constructor; cbn [darr dlen ddel dpcD dtgt dpcR]; auto. split; [|auto].
            destruct (Nat.eq_dec j d) as [->|]; [|lia]. exfalso.
            destruct Hd as [[cd Hcd]|Hd]; [|lia]. rewrite Harr in En. congruence. }
        { constructor; auto; rewrite Ep; auto. }
      * constructor; cbn [darr dlen ddel dpcD dtgt dpcR]; auto.
    + destruct (nth_error (darr s) (S j)) as [x|] eqn:En; constructor; cbn [darr dlen ddel dpcD dtgt dpcR]; auto.
      * intros i Hi. rewrite nth_set_at. destruct (Nat.eq_dec i j); [lia|auto].
      * destruct (S (S j) =? dlen s); auto.
      * rewrite Ep; exact H5.
    + constructor; cbn [darr dlen ddel dpcD dtgt dpcR]; auto.
    + constructor; auto. rewrite Ep; auto.
  - unfold step_reader. destruct (dpcR s) as [len j|c'|] eqn:Ep; [|constructor; auto; rewrite Ep; exact H6|destruct H6].
    destruct H6 as [-> Hj].
    assert (Hkl : k < length ds) by (apply nth_error_Some; congruence).
    destruct (Nat.ltb_spec j (length ds)) as [Hlt|Hlt]; [|lia].
    rewrite (H1 j ltac:(lia)). destruct (nth_error ds j) as [[c' n]|] eqn:En.
    + constructor; cbn [darr dlen ddel dpcD dtgt dpcR]; auto. rewrite H3. destruct (string_dec n tgt) as [->|Hne].
      * assert (Hjk : j = k) by eauto. subst j. congruence.
      * split; [reflexivity|]. destruct (Nat.eq_dec j k) as [->|]; [congruence|lia].
    + apply nth_error_None in En; lia.
Qed.

Lemma delete_spares_earlier : forall ds del tgt k c d sched,
  nth_error ds k = Some (c, tgt) ->
  (forall i c', nth_error ds i = Some (c', tgt) -> i = k) ->
  k < d -> (forall i c', i < d -> nth_error ds i = Some (c', del) -> False) ->
  ((exists cd, nth_error ds d = Some (cd, del)) \/ d = length ds) ->
  match dpcR (drun (dinit ds del tgt) sched) with
  | RMissed => False
  | RFound c' => c' = c
  | RScan _ _ => True
  end.
Proof.
  intros ds del tgt k c d sched Hk Huniq Hkd Hdel Hd.
  assert (HI : DInv ds del tgt d k c (dinit ds del tgt)).
  { constructor; cbn; auto; split; auto; lia. }
  assert (HR : DInv ds del tgt d k c (drun (dinit ds del tgt) sched)).
  { revert HI. generalize (dinit ds del tgt) as s. induction sched as [|b sched IH]; intros s HI; simpl; [exact HI|].
    apply IH. apply DInv_step; auto. }
  apply di_pcR in HR. destruct (dpcR (drun (dinit ds del tgt) sched)); auto.
Qed.
