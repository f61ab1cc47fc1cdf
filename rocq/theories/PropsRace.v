(* Data races on the children of a node. *)

From Verif Require Import Base TreeRace.

(* ----- specification ----- *)

Definition at_ (tr : list event) (i : nat) (g : nat) (o : op) : Prop := nth_error tr i = Some (g, o).

(* The Go memory model: a goroutine's own steps are in order, and an Unlock is before every later
   Lock of the mutex. *)
Inductive before (tr : list event) : nat -> nat -> Prop :=
| bf_own i j g a b : i < j -> at_ tr i g a -> at_ tr j g b -> before tr i j
| bf_mutex i j g h : i < j -> at_ tr i g OUnlock -> at_ tr j h OLock -> before tr i j
| bf_trans i j k : before tr i j -> before tr j k -> before tr i k.

(* Two accesses by different goroutines, one of them a write, with nothing that orders them. *)
Definition race (tr : list event) (i j : nat) : Prop :=
  i < j /\ (exists g h a b, g <> h /\ at_ tr i g a /\ at_ tr j h b /\
    ((a = OWrite /\ (b = ORead \/ b = OWrite)) \/ (a = ORead /\ b = OWrite))) /\
  ~ before tr i j.

(* The goroutine of step i has the mutex. *)
Definition guarded (tr : list event) (i g : nat) : Prop :=
  exists l, l < i /\ at_ tr l g OLock /\ forall u, l < u < i -> ~ at_ tr u g OUnlock.

Definition deletes (c : tcall) : bool := match c with CDelete _ => true | _ => false end.

(* ----- proofs ----- *)

(* Who has the mutex after some events. *)
Definition hold (h : option nat) (e : event) : option nat :=
  match snd e with OLock => Some (fst e) | OUnlock => None | _ => h end.
Definition holder (h : option nat) (tr : list event) : option nat := fold_left hold tr h.

(* What the events of the program obey, from a holder of the mutex on. *)
Fixpoint lawful (h : option nat) (tr : list event) : Prop :=
  match tr with
  | [] => True
  | (g, o) :: tr' =>
    match o with
    | OLock => h = None
    | OUnlock | OWrite => h = Some g
    | ORead => True
    end /\ lawful (hold h (g, o)) tr'
  end.

Lemma nth_put : forall l i j r, nth_error (put i r l) j = if Nat.eqb i j then match nth_error l j with Some _ => Some r | None => None end else nth_error l j.
Proof.
  induction l as [|x l IH]; intros [|i] [|j] r; cbn; try reflexivity; try (destruct (Nat.eqb i j); reflexivity). apply IH.
Qed.

(* The goroutine in a critical section is the holder. *)
Definition inside (p : tpos) : bool := match p with TAppend _ | TRemove _ | TRelease => true | _ => false end.
Definition held (s : rstate) : Prop := forall i r, nth_error (r_all s) i = Some r -> inside (r_pos r) = true -> r_lock s = Some i.

Definition lawful_step (h : option nat) (i : nat) (o : option op) (h' : option nat) : Prop :=
  match o with
  | Some OLock => h = None /\ h' = Some i
  | Some OUnlock => h = Some i /\ h' = None
  | Some OWrite => h = Some i /\ h' = h
  | _ => h' = h
  end.
Lemma held_step : forall s i s' o, held s -> rstep s i = Some (s', o) -> held s' /\ lawful_step (r_lock s) i o (r_lock s').
Proof.
  intros s i s' o H E. unfold rstep in E. destruct (nth_error (r_all s) i) as [r|] eqn:Nr; [|discriminate].
  pose proof (H i r Nr) as Hi.
  assert (P : forall ds lock p cs, (inside p = true -> lock = Some i) -> (lock = r_lock s \/ r_lock s = None \/ r_lock s = Some i) ->
    held (mkR ds lock (put i (mkRoutine p cs) (r_all s)))).
  { intros ds lock p cs A B j r' N I. cbn [r_all r_lock] in *. rewrite nth_put in N. destruct (Nat.eqb i j) eqn:X.
    - apply Nat.eqb_eq in X. subst j. rewrite Nr in N. injection N as <-. exact (A I).
    - pose proof (H j r' N I) as Y. apply Nat.eqb_neq in X. destruct B as [->|[B|B]]; congruence. }
  destruct (r_pos r) eqn:Pr.
  - destruct (r_calls r) as [|[n|n|n] cs]; [discriminate| | |].
    + injection E as <- <-. split; [apply P; [destruct (has n (r_downs s)); discriminate|left; reflexivity]|reflexivity].
    + injection E as <- <-. split; [apply P; [discriminate|left; reflexivity]|]. destruct (String.eqb n ""); reflexivity.
    + destruct (r_lock s) eqn:L; [discriminate|]. injection E as <- <-. split; [apply P; [reflexivity|right; left; reflexivity]|split; reflexivity].
  - destruct (r_lock s) eqn:L; [discriminate|]. injection E as <- <-. split; [apply P; [reflexivity|right; left; reflexivity]|split; reflexivity].
  - injection E as <- <-. specialize (Hi eq_refl). split; [apply P; [intros _; exact Hi|left; reflexivity]|split; [exact Hi|reflexivity]].
  - specialize (Hi eq_refl). destruct (has name (r_downs s)); injection E as <- <-; (split; [apply P; [intros _; exact Hi|left; reflexivity]|]); [split; [exact Hi|reflexivity]|reflexivity].
  - injection E as <- <-. specialize (Hi eq_refl). split; [apply P; [discriminate|right; right; exact Hi]|split; [exact Hi|reflexivity]].
Qed.
Lemma trace_lawful : forall sched s, held s -> lawful (r_lock s) (rtrace s sched).
Proof.
  induction sched as [|i sched IH]; intros s H; [exact I|]. cbn [rtrace].
  destruct (rstep s i) as [[s' [o|]]|] eqn:E; [| |apply IH; exact H].
  - destruct (held_step _ _ _ _ H E) as [H' L]. pose proof (IH s' H') as G. cbn [lawful]. unfold hold. cbn [fst snd].
    destruct o; cbn [lawful_step] in L; [split; [exact I|rewrite <- L; exact G]|destruct L as [L1 L2]; (split; [exact L1|rewrite <- L2; exact G])..].
  - destruct (held_step _ _ _ _ H E) as [H' L]. cbn [lawful_step] in L. rewrite <- L. apply IH. exact H'.
Qed.
Lemma start_held : forall ds progs, held (rstart ds progs).
Proof.
  intros ds progs i r N I. cbn [rstart r_all] in N. rewrite nth_error_map in N. destruct (nth_error progs i); [|discriminate].
  injection N as <-. discriminate.
Qed.

Lemma lawful_app : forall a b h, lawful h (a ++ b) -> lawful h a /\ lawful (holder h a) b.
Proof.
  induction a as [|[g o] a IH]; intros b h L; [split; [exact I|exact L]|]. cbn [app lawful] in L. destruct L as [A L].
  apply IH in L. destruct L as [L1 L2]. split; [split; assumption|exact L2].
Qed.
Lemma holder_snoc : forall h a e, holder h (a ++ [e]) = hold (holder h a) e.
Proof. intros h a e. unfold holder. rewrite fold_left_app. reflexivity. Qed.
Lemma firstn_at : forall (tr : list event) j e, nth_error tr j = Some e -> firstn (S j) tr = firstn j tr ++ [e].
Proof.
  induction tr as [|x tr IH]; intros [|j] e N; try discriminate.
  - cbn in N. injection N as ->. reflexivity.
  - cbn [nth_error] in N. change (x :: firstn (S j) tr = x :: (firstn j tr ++ [e])). f_equal. apply IH. exact N.
Qed.
Lemma lawful_at : forall tr h j g o, lawful h tr -> nth_error tr j = Some (g, o) ->
  match o with OLock => holder h (firstn j tr) = None | OUnlock | OWrite => holder h (firstn j tr) = Some g | ORead => True end.
Proof.
  intros tr h j g o L N. rewrite <- (firstn_skipn j tr) in L. apply lawful_app in L. destruct L as [_ L].
  assert (S : exists r, skipn j tr = (g, o) :: r).
  { clear L. revert j N. induction tr as [|x tr IH]; intros [|j] N; try discriminate; cbn in *; [injection N as ->; exists tr; reflexivity|apply IH; exact N]. }
  destruct S as (r & S). rewrite S in L. cbn [lawful] in L. destruct L as [L _]. destruct o; exact L.
Qed.

(* The lock a holder has taken. *)
Lemma holder_guarded : forall tr j g, lawful None tr -> j <= List.length tr -> holder None (firstn j tr) = Some g -> guarded tr j g.
Proof.
  intros tr j g L. induction j as [|j IH]; intros B H; [discriminate|].
  destruct (nth_error tr j) as [[g' o]|] eqn:N; [|apply nth_error_None in N; lia].
  rewrite (firstn_at _ _ _ N), holder_snoc in H. pose proof (lawful_at _ _ _ _ _ L N) as A.
  assert (Go : (forall g0, o = OUnlock -> g' = g0 -> g0 <> g) -> holder None (firstn j tr) = Some g -> guarded tr (S j) g).
  { intros O G. destruct (IH ltac:(lia) G) as (l & Hl & Al & Nu). exists l. split; [lia|]. split; [exact Al|].
    intros u Hu Au. destruct (Nat.eq_dec u j) as [->|X]; [|apply (Nu u); [lia|exact Au]].
    unfold at_ in Au. rewrite N in Au. injection Au as -> ->. exact (O g eq_refl eq_refl eq_refl). }
  unfold hold in H. cbn [fst snd] in H. destruct o; try (apply Go; [discriminate|exact H]); [|discriminate].
  injection H as ->. exists j. split; [lia|]. split; [exact N|]. intros u Hu. lia.
Qed.
(* A holder keeps the mutex until the Unlock. *)
Lemma kept : forall tr i g j, lawful None tr -> i <= j -> j <= List.length tr -> holder None (firstn i tr) = Some g ->
  holder None (firstn j tr) = Some g \/ exists u, i <= u < j /\ at_ tr u g OUnlock.
Proof.
  intros tr i g j L. induction j as [|j0 IH]; intros B B' G; [assert (i = 0) by lia; subst; left; exact G|].
  destruct (Nat.eq_dec i (S j0)) as [->|X]; [left; exact G|]. destruct (IH ltac:(lia) ltac:(lia) G) as [H|(u & Hu & A)]; [|right; exists u; split; [lia|exact A]].
  destruct (nth_error tr j0) as [[g' o]|] eqn:N; [|apply nth_error_None in N; lia].
  pose proof (lawful_at _ _ _ _ _ L N) as A. rewrite (firstn_at _ _ _ N), holder_snoc, H. unfold hold. cbn [fst snd].
  destruct o; [left; reflexivity|left; reflexivity|congruence|]. right. exists j0. split; [lia|]. assert (g' = g) by congruence. subst g'. exact N.
Qed.
Lemma guarded_holder : forall tr j g, lawful None tr -> j <= List.length tr -> guarded tr j g -> holder None (firstn j tr) = Some g.
Proof.
  intros tr j g L B (l & Hl & A & Nu).
  assert (H : holder None (firstn (S l) tr) = Some g) by (rewrite (firstn_at _ _ _ A), holder_snoc; reflexivity).
  destruct (kept tr (S l) g j L ltac:(lia) B H) as [K|(u & Hu & Au)]; [exact K|]. destruct (Nu u ltac:(lia) Au).
Qed.
(* Between two holders there are an Unlock and a Lock. *)
Lemma handover : forall tr i g h j, lawful None tr -> i <= j -> j <= List.length tr -> g <> h ->
  holder None (firstn i tr) = Some g -> holder None (firstn j tr) = Some h ->
  exists u l, i <= u < l /\ l < j /\ at_ tr u g OUnlock /\ at_ tr l h OLock.
Proof.
  intros tr i g h j L. revert h.
  induction j as [|j IH]; intros h B B' Ne G H; [assert (i = 0) by lia; subst; congruence|].
  destruct (Nat.eq_dec i (S j)) as [->|X]; [congruence|].
  destruct (nth_error tr j) as [[g' o]|] eqn:N; [|apply nth_error_None in N; lia].
  pose proof (lawful_at _ _ _ _ _ L N) as A. rewrite (firstn_at _ _ _ N), holder_snoc in H. unfold hold in H. cbn [fst snd] in H.
  assert (Go : holder None (firstn j tr) = Some h -> exists u l, i <= u < l /\ l < S j /\ at_ tr u g OUnlock /\ at_ tr l h OLock).
  { intro H'. destruct (IH h ltac:(lia) ltac:(lia) Ne G H') as (u & l & U1 & U2 & U3 & U4). exists u, l. repeat split; try assumption; lia. }
  destruct o; [apply Go; exact H|apply Go; exact H| |discriminate]. injection H as ->.
  destruct (kept tr i g j L ltac:(lia) ltac:(lia) G) as [F|(u & Hu & Au)]; [congruence|].
  exists u, j. split; [lia|]. split; [lia|]. split; [exact Au|exact N].
Qed.

Lemma at_length : forall tr i g o, at_ tr i g o -> i < List.length tr.
Proof. intros tr i g o A. apply nth_error_Some. unfold at_ in A. congruence. Qed.
Lemma held_before : forall tr i j g h a b, lawful None tr -> i < j -> g <> h -> at_ tr i g a -> at_ tr j h b -> a <> OUnlock ->
  holder None (firstn i tr) = Some g -> holder None (firstn j tr) = Some h -> before tr i j.
Proof.
  intros tr i j g h a b L B Ne Ai Aj Na Hi Hj. pose proof (at_length _ _ _ _ Aj) as Lj.
  destruct (handover tr i g h j L ltac:(lia) ltac:(lia) Ne Hi Hj) as (u & l & U1 & U2 & U3 & U4).
  apply (bf_trans _ i u); [|apply (bf_trans _ u l)].
  - assert (i <> u) by (intros ->; unfold at_ in *; congruence). apply (bf_own _ i u g a OUnlock); [lia|exact Ai|exact U3].
  - apply (bf_mutex _ u l g h); [lia|exact U3|exact U4].
  - apply (bf_own _ l j h OLock b); [lia|exact U4|exact Aj].
Qed.

(* What orders two steps of different goroutines is an Unlock and a Lock between them. *)
Lemma before_inv : forall tr i j, before tr i j -> i < j /\
  ((exists g a b, at_ tr i g a /\ at_ tr j g b) \/ exists u l g h, i <= u < l /\ l <= j /\ at_ tr u g OUnlock /\ at_ tr l h OLock).
Proof.
  intros tr i j B. induction B as [i j g a b L A A'|i j g h L A A'|i j k B1 [L1 H1] B2 [L2 H2]].
  - split; [exact L|]. left. eauto.
  - split; [exact L|]. right. exists i, j, g, h. repeat split; try assumption; lia.
  - split; [lia|]. destruct H1 as [(g & a & b & A & A')|(u & l & g & h & U1 & U2 & U3 & U4)].
    + destruct H2 as [(g' & a' & b' & C & C')|(u & l & g' & h & U1 & U2 & U3 & U4)].
      * left. exists g, a, b'. split; [exact A|]. unfold at_ in *. congruence.
      * right. exists u, l, g', h. repeat split; try assumption; lia.
    + right. exists u, l, g, h. repeat split; try assumption; lia.
Qed.

(* Without deletions and names that are not there nothing is written. *)
Lemma has_In : forall n ds, has n ds = true <-> In n ds.
Proof.
  intros n ds. unfold has. rewrite existsb_exists. split.
  - intros (x & J & E). apply String.eqb_eq in E. subst. exact J.
  - intro J. exists n. split; [exact J|apply String.eqb_refl].
Qed.
Definition reads_only (ds : list string) (c : tcall) : Prop := match c with CAdd n => In n ds | CGet _ => True | CDelete _ => False end.
Lemma reads_trace : forall sched s, (forall i r, nth_error (r_all s) i = Some r -> r_pos r = TIdle /\ Forall (reads_only (r_downs s)) (r_calls r)) ->
  Forall (fun e => snd e = ORead) (rtrace s sched).
Proof.
  induction sched as [|i sched IH]; intros s H; [constructor|]. cbn [rtrace]. unfold rstep.
  destruct (nth_error (r_all s) i) as [r|] eqn:N; [|apply IH; exact H]. destruct (H i r N) as [-> F].
  assert (P : forall cs, Forall (reads_only (r_downs s)) cs -> forall j r', nth_error (r_all (mkR (r_downs s) (r_lock s) (put i (mkRoutine TIdle cs) (r_all s)))) j = Some r' ->
    r_pos r' = TIdle /\ Forall (reads_only (r_downs s)) (r_calls r')).
  { intros cs Fc j r' Nj. cbn [r_all] in Nj. rewrite nth_put in Nj. destruct (Nat.eqb i j) eqn:X; [|exact (H j r' Nj)].
    apply Nat.eqb_eq in X. subst j. rewrite N in Nj. injection Nj as <-. split; [reflexivity|exact Fc]. }
  destruct (r_calls r) as [|c cs]; [apply IH; exact H|]. inversion F as [|? ? Fc Fcs]; subst. destruct c as [n|n|n]; [| |destruct Fc].
  - cbn [reads_only] in Fc. rewrite (proj2 (has_In _ _) Fc). constructor; [reflexivity|]. apply IH. exact (P cs Fcs).
  - destruct (String.eqb n ""); [|constructor; [reflexivity|]]; apply IH; exact (P cs Fcs).
Qed.
(* With deletions alone everything is done by the holder. *)
Fixpoint all_held (h : option nat) (tr : list event) : Prop :=
  match tr with
  | [] => True
  | (g, o) :: tr' => (o = OLock \/ h = Some g) /\ all_held (hold h (g, o)) tr'
  end.
Definition deleting (r : routine) : Prop := forallb deletes (r_calls r) = true /\ forall n, r_pos r <> TAbsent n.
Lemma deletes_trace : forall sched s, held s -> (forall i r, nth_error (r_all s) i = Some r -> deleting r) -> all_held (r_lock s) (rtrace s sched).
Proof.
  induction sched as [|i sched IH]; intros s H D; [exact I|]. cbn [rtrace]. destruct (rstep s i) as [[s' o]|] eqn:E; [|apply IH; assumption].
  destruct (held_step _ _ _ _ H E) as [H' L]. unfold rstep in E. destruct (nth_error (r_all s) i) as [r|] eqn:N; [|discriminate]. pose proof (D i r N) as [D1 D2].
  pose proof (H i r N) as Hi.
  assert (P : forall ds lock p cs, forallb deletes cs = true -> (forall n, p <> TAbsent n) ->
    forall j r', nth_error (r_all (mkR ds lock (put i (mkRoutine p cs) (r_all s)))) j = Some r' -> deleting r').
  { intros ds lock p cs A B j r' Nj. cbn [r_all] in Nj. rewrite nth_put in Nj. destruct (Nat.eqb i j) eqn:X; [|exact (D j r' Nj)].
    apply Nat.eqb_eq in X. subst j. rewrite N in Nj. injection Nj as <-. split; assumption. }
  destruct (r_pos r) as [|n|n|n|] eqn:Pr; [| | | |].
  - destruct (r_calls r) as [|[n|n|n] cs]; try discriminate. cbn in D1. destruct (r_lock s) eqn:Lk; [discriminate|]. injection E as <- <-.
    cbn [all_held]. split; [left; reflexivity|]. apply (IH _ H'). apply P; [exact D1|discriminate].
  - destruct (D2 n eq_refl).
  - injection E as <- <-. specialize (Hi eq_refl). split; [right; exact Hi|]. apply (IH _ H'). apply P; [exact D1|discriminate].
  - specialize (Hi eq_refl). destruct (has n (r_downs s)); injection E as <- <-; (split; [right; exact Hi|]; apply (IH _ H'); apply P; [exact D1|discriminate]).
  - injection E as <- <-. specialize (Hi eq_refl). split; [right; exact Hi|]. apply (IH _ H'). apply P; [exact D1|discriminate].
Qed.
Lemma all_held_at : forall tr h j g o, all_held h tr -> nth_error tr j = Some (g, o) -> o <> OLock -> holder h (firstn j tr) = Some g.
Proof.
  induction tr as [|[g' o'] tr IH]; intros h [|j] g o A N Ne; try discriminate; cbn [all_held] in A; destruct A as [A B].
  - cbn in N. injection N as -> ->. destruct A; [contradiction|assumption].
  - exact (IH _ j g o B N Ne).
Qed.

(* ----- C100: data races ----- *)

(* Every write is made with the mutex, so that a race is one of a read without the mutex, which is
   the look at the children by AddNode or GetNode, and a write. *)
Theorem C100_races : forall ds progs sched i j, let tr := rtrace (rstart ds progs) sched in
  race tr i j -> exists g h, g <> h /\
    ((at_ tr i g ORead /\ ~ guarded tr i g /\ at_ tr j h OWrite /\ guarded tr j h) \/
     (at_ tr i g OWrite /\ guarded tr i g /\ at_ tr j h ORead /\ ~ guarded tr j h)).
Proof.
  intros ds progs sched i j tr (B & (g & h & a & b & Ne & Ai & Aj & K) & NB).
  assert (L : lawful None tr) by (apply (trace_lawful sched (rstart ds progs)), start_held).
  pose proof (at_length _ _ _ _ Ai) as Bi. pose proof (at_length _ _ _ _ Aj) as Bj.
  pose proof (lawful_at _ _ _ _ _ L Ai) as Hi. pose proof (lawful_at _ _ _ _ _ L Aj) as Hj.
  exists g, h. split; [exact Ne|]. destruct K as [[-> [->| ->]]|[-> ->]].
  - right. split; [exact Ai|]. split; [apply holder_guarded; [exact L|lia|exact Hi]|]. split; [exact Aj|]. intro G. apply NB.
    apply (held_before tr i j g h OWrite ORead L B Ne Ai Aj); [discriminate|exact Hi|apply guarded_holder; [exact L|lia|exact G]].
  - exfalso. apply NB. apply (held_before tr i j g h OWrite OWrite L B Ne Ai Aj); [discriminate|exact Hi|exact Hj].
  - left. split; [exact Ai|]. split; [|split; [exact Aj|apply holder_guarded; [exact L|lia|exact Hj]]]. intro G. apply NB.
    apply (held_before tr i j g h ORead OWrite L B Ne Ai Aj); [discriminate|apply guarded_holder; [exact L|lia|exact G]|exact Hj].
Qed.
Print Assumptions C100_races.

(* The children change with the writes and with nothing else: a write adds a child at the end, or
   removes the first one of a name. *)
Lemma drop_split : forall n ds, In n ds -> exists a b, ds = a ++ n :: b /\ ~ In n a /\ drop_first n ds = a ++ b.
Proof.
  intros n ds. induction ds as [|d ds IH]; intros J; [destruct J|]. cbn [drop_first]. destruct (String.eqb_spec n d) as [->|Ne].
  - exists [], ds. split; [reflexivity|]. split; [intros []|reflexivity].
  - destruct J as [J|J]; [congruence|]. destruct (IH J) as (a & b & -> & N & E). exists (d :: a), b. split; [reflexivity|].
    split; [intros [X|X]; [congruence|contradiction]|]. rewrite E. reflexivity.
Qed.
Theorem C100_writes : forall s i s' o, rstep s i = Some (s', o) ->
  (o = Some OWrite /\ ((exists n, r_downs s' = r_downs s ++ [n]) \/
     exists n a b, r_downs s = a ++ n :: b /\ ~ In n a /\ r_downs s' = a ++ b)) \/
  (o <> Some OWrite /\ r_downs s' = r_downs s).
Proof.
  intros s i s' o E. unfold rstep in E. destruct (nth_error (r_all s) i) as [r|]; [|discriminate].
  destruct (r_pos r) as [|n|n|n|].
  - destruct (r_calls r) as [|[n|n|n] cs]; [discriminate| | |].
    + injection E as <- <-. right. split; [discriminate|reflexivity].
    + injection E as <- <-. right. split; [destruct (String.eqb n ""); discriminate|reflexivity].
    + destruct (r_lock s); [discriminate|]. injection E as <- <-. right. split; [discriminate|reflexivity].
  - destruct (r_lock s); [discriminate|]. injection E as <- <-. right. split; [discriminate|reflexivity].
  - injection E as <- <-. left. split; [reflexivity|]. left. exists n. reflexivity.
  - destruct (has n (r_downs s)) eqn:H; injection E as <- <-.
    + left. split; [reflexivity|]. right. apply has_In in H. destruct (drop_split n (r_downs s) H) as (a & b & E & N & D). exists n, a, b. auto.
    + right. split; [discriminate|reflexivity].
  - injection E as <- <-. right. split; [discriminate|reflexivity].
Qed.
Print Assumptions C100_writes.

(* Deletions do not race with each other, *)
Theorem C100_deletes : forall ds progs sched i j, Forall (fun p => forallb deletes p = true) progs ->
  ~ race (rtrace (rstart ds progs) sched) i j.
Proof.
  intros ds progs sched i j F R. pose proof R as (B & (g0 & h0 & a & b & _ & Ai & Aj & K) & _).
  assert (L : lawful None (rtrace (rstart ds progs) sched)) by (apply (trace_lawful sched (rstart ds progs)), start_held).
  assert (A : all_held None (rtrace (rstart ds progs) sched)).
  { apply (deletes_trace sched (rstart ds progs)); [apply start_held|]. intros k r N. cbn [rstart r_all] in N. rewrite nth_error_map in N.
    destruct (nth_error progs k) as [p|] eqn:Np; [|discriminate]. injection N as <-. split; [|discriminate]. cbn [r_calls].
    rewrite Forall_forall in F. exact (F p (nth_error_In _ _ Np)). }
  destruct (C100_races _ _ _ _ _ R) as (g & h & _ & [(A1 & G & _)|(_ & _ & A1 & G)]); apply G;
    (apply holder_guarded; [exact L|pose proof (at_length _ _ _ _ A1); lia|]);
    (eapply all_held_at; [exact A|exact A1|discriminate]).
Qed.
Print Assumptions C100_deletes.

(* nor do lookups with each other and with AddNode of names that are there. *)
Theorem C100_lookups : forall ds progs sched i j,
  Forall (Forall (fun c => match c with CAdd n => In n ds | CGet _ => True | CDelete _ => False end)) progs ->
  ~ race (rtrace (rstart ds progs) sched) i j.
Proof.
  intros ds progs sched i j F (_ & (g & h & a & b & _ & Ai & Aj & K) & _).
  assert (R : Forall (fun e => snd e = ORead) (rtrace (rstart ds progs) sched)).
  { apply reads_trace. intros k r N. cbn [rstart r_all r_downs] in N |- *. rewrite nth_error_map in N.
    destruct (nth_error progs k) as [p|] eqn:Np; [|discriminate]. injection N as <-. split; [reflexivity|]. cbn [r_calls].
    rewrite Forall_forall in F. exact (F p (nth_error_In _ _ Np)). }
  rewrite Forall_forall in R. pose proof (R _ (nth_error_In _ _ Ai)) as E1. pose proof (R _ (nth_error_In _ _ Aj)) as E2. cbn in E1, E2. subst.
  destruct K as [[K _]|[_ K]]; discriminate.
Qed.
Print Assumptions C100_lookups.

Lemma has_not : forall n ds, ~ In n ds -> has n ds = false.
Proof. intros n ds N. destruct (has n ds) eqn:H; [|reflexivity]. apply has_In in H. contradiction. Qed.
(* A step right after another one, of another goroutine, is not ordered by it unless it is a Lock. *)
Lemma next_not : forall tr i g h a b, g <> h -> at_ tr i g a -> at_ tr (S i) h b -> b <> OLock -> ~ before tr i (S i).
Proof.
  intros tr i g h a b Ne A A' Nb B. apply before_inv in B. destruct B as [_ [(x & c & d & C & C')|(u & l & x & y & U1 & U2 & U3 & U4)]].
  - unfold at_ in *. congruence.
  - assert (l = S i) by lia. subst l. unfold at_ in *. congruence.
Qed.

(* But they are not free of races: whatever children there are, the write of an AddNode of a new
   name races with every look at the children, *)
Theorem C100_add_refuted : forall ds n c, ~ In n ds -> c <> CGet "" -> deletes c = false ->
  exists sched i j, race (rtrace (rstart ds [[CAdd n]; [c]]) sched) i j.
Proof.
  intros ds n c N Nc Dc. exists [0; 0; 0; 1], 2, 3.
  assert (E : rtrace (rstart ds [[CAdd n]; [c]]) [0; 0; 0; 1] = [(0, ORead); (0, OLock); (0, OWrite); (1, ORead)]).
  { pose proof (has_not _ _ N) as H. unfold has in H. cbn. rewrite H. cbn. destruct c as [m|m|m]; [reflexivity| |discriminate].
    destruct (String.eqb m "") eqn:M; [apply String.eqb_eq in M; subst; contradiction|reflexivity]. }
  rewrite E. split; [lia|]. split.
  - exists 0, 1, OWrite, ORead. split; [discriminate|]. split; [reflexivity|]. split; [reflexivity|]. left. auto.
  - apply (next_not _ 2 0 1 OWrite ORead); [discriminate|reflexivity|reflexivity|discriminate].
Qed.
Print Assumptions C100_add_refuted.

(* and so does that of a DeleteNode of a child. *)
Theorem C100_delete_refuted : forall ds n c, In n ds -> c <> CGet "" -> deletes c = false ->
  exists sched i j, race (rtrace (rstart ds [[CDelete n]; [c]]) sched) i j.
Proof.
  intros ds n c N Nc Dc. exists [0; 0; 1], 1, 2.
  assert (E : rtrace (rstart ds [[CDelete n]; [c]]) [0; 0; 1] = [(0, OLock); (0, OWrite); (1, ORead)]).
  { pose proof (proj2 (has_In _ _) N) as H. unfold has in H. cbn. rewrite H. cbn. destruct c as [m|m|m]; [reflexivity| |discriminate].
    destruct (String.eqb m "") eqn:M; [apply String.eqb_eq in M; subst; contradiction|reflexivity]. }
  rewrite E. split; [lia|]. split.
  - exists 0, 1, OWrite, ORead. split; [discriminate|]. split; [reflexivity|]. split; [reflexivity|]. left. auto.
  - apply (next_not _ 1 0 1 OWrite ORead); [discriminate|reflexivity|reflexivity|discriminate].
Qed.
Print Assumptions C100_delete_refuted.

(* Two goroutines that add: the second look comes before the first append, and is not ordered
   with it, while the two appends are. *)
Example C100_sample :
  let tr := rtrace (rstart ["a"] [[CAdd "b"; CGet "a"]; [CAdd "b"; CDelete "a"]]) [0; 0; 1; 0; 1; 0; 1; 1; 1; 1; 1; 1; 0] in
  tr = [(0, ORead); (0, OLock); (1, ORead); (0, OWrite); (0, OUnlock); (1, OLock); (1, OWrite); (1, OUnlock); (1, OLock); (1, OWrite); (1, OUnlock); (0, ORead)] /\
  race tr 2 3 /\ before tr 3 6 /\ race tr 9 11.
Proof.
  intro tr. split; [reflexivity|]. split; [|split].
  - split; [lia|]. split; [exists 1, 0, ORead, OWrite; repeat split; auto|].
    apply (next_not _ 2 1 0 ORead OWrite); [discriminate|reflexivity|reflexivity|discriminate].
  - apply (bf_trans _ 3 4); [apply (bf_own _ 3 4 0 OWrite OUnlock); [lia|reflexivity|reflexivity]|].
    apply (bf_trans _ 4 5); [apply (bf_mutex _ 4 5 0 1); [lia|reflexivity|reflexivity]|]. apply (bf_own _ 5 6 1 OLock OWrite); [lia|reflexivity|reflexivity].
  - split; [lia|]. split; [exists 1, 0, OWrite, ORead; repeat split; auto|].
    intro B. apply before_inv in B. destruct B as [_ [(x & c & d & C & C')|(u & l & x & y & U1 & U2 & U3 & U4)]].
    + unfold at_ in *. vm_compute in C, C'. congruence.
    + assert (l = 10 \/ l = 11) as [-> | ->] by lia; vm_compute in U4; discriminate.
Qed.
