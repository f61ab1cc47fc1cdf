(* Proofs about fileset. *)

From Verif Require Import Base CtyModel FuncModel EncModel PathModel PathSpec PathProofs FilesetModel.
From Coq Require Import Lia.

(* ----- the names of a cleaned path ----- *)

Lemma same_parts : forall p q, (forall a, target a p = target a q) -> is_abs p = is_abs q /\ parts p = parts q.
Proof.
  intros p q H. destruct (parts_written p) as (k & l & E & P & R), (parts_written q) as (k' & l' & E' & P' & R').
  assert (G : forall a, (l ++ skipn k (if is_abs p then [] else a) = l' ++ skipn k' (if is_abs q then [] else a))%list).
  { intro a. rewrite <- (written_go k l _ P), <- (written_go k' l' _ P'), <- E, <- E', <- !parts_target. apply H. }
  assert (L : l = l') by (specialize (G []); destruct (is_abs p), (is_abs q); rewrite !skipn_nil, !app_nil_r in G; exact G).
  subst l'. assert (G2 := G (repeat "" (k + k' + 1))). apply app_inv_head in G2. apply (f_equal (@List.length string)) in G2.
  rewrite !skipn_length in G2. rewrite E, E'.
  destruct (is_abs p), (is_abs q); cbn [List.length] in G2; rewrite ?repeat_length in G2; try lia.
  - rewrite (R eq_refl), (R' eq_refl). auto.
  - assert (k = k') by lia. subst k'. auto.
Qed.
Lemma clean_text : forall p, clean p = if is_abs p then String slash (join_path (rev (parts p)))
  else match rev (parts p) with [] => "." | l => join_path l end.
Proof. intro p. unfold clean. fold (parts p). destruct (rev (parts p)); reflexivity. Qed.
Lemma clean_abs : forall p, is_abs (clean p) = is_abs p.
Proof.
  intro p. apply same_parts. intro a. apply clean_target.
Qed.
Lemma join_empty : forall l, (forall n, In n l -> n <> "" /\ no_slash n) -> String.eqb (join_path l) "" = true -> l = [].
Proof.
  intros [|n l] H E; [reflexivity|]. apply String.eqb_eq in E. destruct (H n (or_introl eq_refl)) as [X _].
  destruct n as [|c n]; [congruence|]. destruct l; discriminate.
Qed.
Lemma split_join : forall l, l <> [] -> (forall n, In n l -> n <> "" /\ no_slash n) -> split_path (join_path l) = l.
Proof. intros l Ne H. rewrite <- slashed_join. apply split_slashed; [exact Ne|]. intros n I. apply H. exact I. Qed.
Lemma rel_names_clean : forall p, rel_names (clean p) = if is_abs p then rev (parts p) else match rev (parts p) with [] => ["."] | l => l end.
Proof.
  intro p. rewrite clean_text. assert (N := written_names _ _ (parts_written p)). destruct (is_abs p) eqn:A.
  - cbn [rel_names]. rewrite Ascii.eqb_refl. destruct (String.eqb (join_path (rev (parts p))) "") eqn:E.
    + apply join_empty in E; [symmetry; exact E|exact N].
    + destruct (rev (parts p)) as [|n l] eqn:L; [discriminate|]. apply split_join; [discriminate|exact N].
  - destruct (rev (parts p)) as [|n l] eqn:L; [reflexivity|]. rewrite <- (split_join (n :: l)) at 2; [|discriminate|exact N].
    assert (B := abs_join (n :: l) N). destruct (join_path (n :: l)) as [|c q] eqn:J.
    + apply (f_equal (fun s => String.eqb s "")) in J. apply join_empty in J; [discriminate|exact N].
    + cbn [is_abs] in B. unfold rel_names. rewrite B. reflexivity.
Qed.
Lemma clean_dot : forall p, String.eqb (clean p) "." = negb (is_abs p) && match parts p with [] => true | _ => false end.
Proof.
  intro p. rewrite clean_text. assert (N := written_names _ _ (parts_written p)). destruct (is_abs p) eqn:A; [reflexivity|]. cbn [negb andb].
  assert (W := parts_written p). destruct (parts p) as [|n l] eqn:L; [reflexivity|].
  destruct (rev (n :: l)) as [|m r] eqn:R; [apply (f_equal (@List.length string)) in R; rewrite rev_length in R; discriminate|].
  apply String.eqb_neq. intro E.
  assert (S : split_path (join_path (m :: r)) = m :: r) by (apply split_join; [discriminate|exact N]). rewrite E in S. cbn in S. injection S as <- <-.
  destruct W as (k & l' & E' & P & _). assert (I : In "." (l' ++ ups k)%list) by (rewrite <- E', in_rev, R; left; reflexivity).
  apply in_app_iff in I. destruct I as [I|I].
  - apply P in I. destruct I as (_ & I & _). congruence.
  - apply repeat_spec in I. discriminate.
Qed.

(* ----- what is common ----- *)

Lemma strip_spec : forall b t b' t', strip_common b t = (b', t') -> exists c, b = (c ++ b')%list /\ t = (c ++ t')%list /\
  (b' = [] \/ t' = [] \/ exists x y u v, b' = x :: u /\ t' = y :: v /\ x <> y).
Proof.
  induction b as [|x b IH]; intros [|y t] b' t' E; cbn in E.
  - injection E as <- <-. exists []. auto.
  - injection E as <- <-. exists []. auto.
  - injection E as <- <-. exists []. auto.
  - destruct (String.eqb_spec x y) as [->|Ne].
    + apply IH in E. destruct E as (c & -> & -> & X). exists (y :: c). auto.
    + injection E as <- <-. exists []. split; [reflexivity|]. split; [reflexivity|]. right. right. exists x, y, b, t. auto.
Qed.

(* A path in front of which others can be put keeps its ".."s. *)
Lemma keeps_ups : forall l k i out, (forall n, In n l -> no_slash n) -> (k <= i)%nat -> (exists x, out = x ++ ups i /\ forall n, In n x -> plain_name n)%list ->
  exists i' x, fold_left (clean_part false) l out = (x ++ ups i')%list /\ (k <= i')%nat /\ forall n, In n x -> plain_name n.
Proof.
  induction l as [|n l IH]; intros k i out N K (x & -> & P); [exists i, x; auto|]. cbn [fold_left].
  assert (G : exists i' x', clean_part false (x ++ ups i) n = (x' ++ ups i')%list /\ (k <= i')%nat /\ forall n, In n x' -> plain_name n).
  { unfold clean_part. destruct (String.eqb n "" || String.eqb n ".") eqn:E; [exists i, x; auto|].
    destruct (String.eqb_spec n "..") as [->|U].
    - destruct x as [|top x]; cbn [app].
      + destruct i as [|i]; [exists 1%nat, []|exists (S (S i)), []]; (split; [reflexivity|]); (split; [lia|intros m []]).
      + destruct (P top (or_introl eq_refl)) as (_ & _ & T & _). apply String.eqb_neq in T. rewrite T. exists i, x.
        split; [reflexivity|]. split; [exact K|]. intros m I. apply P. right. exact I.
    - exists i, (n :: x). split; [reflexivity|]. split; [exact K|]. intros m [<-|I]; [|apply P; exact I].
      apply orb_false_elim in E. destruct E as [E D]. apply String.eqb_neq in E, D. repeat split; try assumption. apply N. left. reflexivity. }
  destruct G as (i' & x' & -> & K' & P'). apply (IH k i'); [intros m I; apply N; right; exact I|exact K'|]. exists x'. auto.
Qed.
Lemma parts_under : forall d p, d <> "" -> parts (d +++ String slash p) = fold_left (clean_part (is_abs d)) (split_path p) (parts d).
Proof. intros d p Ne. unfold parts. rewrite split_app, fold_left_app, abs_app by exact Ne. reflexivity. Qed.
Lemma ups_counted : forall l l' k k', (forall n, In n l -> plain_name n) -> (forall n, In n l' -> plain_name n) -> (l ++ ups k = l' ++ ups k')%list -> k = k'.
Proof.
  assert (C : forall l k, (forall n, In n l -> plain_name n) -> count_occ string_dec (l ++ ups k) ".." = k).
  { intros l k P. rewrite count_occ_app. replace (count_occ string_dec l "..") with 0%nat.
    - unfold ups. cbn [Nat.add]. induction k as [|k IH]; [reflexivity|]. cbn [repeat count_occ]. destruct (string_dec ".." ".."); [f_equal; exact IH|congruence].
    - symmetry. apply count_occ_not_In. intro I. apply P in I. destruct I as (_ & _ & I & _). congruence. }
  intros l l' k k' P P' E. rewrite <- (C l k P), <- (C l' k' P'), E. reflexivity.
Qed.

(* The names of the target as they are compared. *)
Lemma rel_target_names : forall t, exists T, rel_names (clean t) = T /\ (forall n, In n T -> n <> "" /\ no_slash n) /\
  (forall a, fold_left go T (if is_abs t then [] else a) = target a t) /\ (T = rev (parts t) \/ T = ["."] /\ parts t = []).
Proof.
  intro t. exists (rel_names (clean t)). split; [reflexivity|]. rewrite rel_names_clean.
  assert (N := written_names _ _ (parts_written t)). assert (G := parts_target t). destruct (is_abs t) eqn:A.
  - split; [exact N|]. split; [intro a; rewrite G; reflexivity|auto].
  - destruct (rev (parts t)) as [|n l] eqn:L.
    + split; [intros n [<-|[]]; split; [discriminate|repeat split; discriminate]|]. split; [intro a; rewrite G; reflexivity|]. right. split; [reflexivity|].
      apply (f_equal (@rev string)) in L. rewrite rev_involutive in L. exact L.
    + split; [exact N|]. split; [intro a; rewrite G; reflexivity|auto].
Qed.
Lemma rel_base_names : forall b, (if String.eqb (clean b) "." then [] else rel_names (clean b)) = rev (parts b).
Proof.
  intro b. rewrite clean_dot, rel_names_clean. destruct (is_abs b); cbn [negb andb]; [reflexivity|]. destruct (parts b) as [|n l]; [reflexivity|].
  destruct (rev (n :: l)) eqn:R; [|reflexivity]. apply (f_equal (@List.length string)) in R. rewrite rev_length in R. discriminate.
Qed.
Lemma head_plain : forall k l c b x, (forall n, In n l -> plain_name n) -> (ups k ++ l = c ++ x :: b)%list -> x <> ".." -> forall n, In n (x :: b) -> plain_name n.
Proof.
  induction k as [|k IH]; intros l c b x P E U n I.
  - apply P. cbn [ups repeat app] in E. rewrite E. apply in_app_iff. right. exact I.
  - destruct c as [|y c]; injection E as X E; [destruct (U (eq_sym X))|]. apply (IH l c b x P); [exact E|exact U|exact I].
Qed.
Lemma ups_prefix : forall c k l b, (forall n, In n l -> plain_name n) -> (ups k ++ l = c ++ ".." :: b)%list -> exists j, c = ups j /\ (j < k)%nat.
Proof.
  induction c as [|y c IH]; intros k l b P E.
  - destruct k as [|k]; [|exists 0%nat; split; [reflexivity|lia]]. cbn in E. subst l. destruct (P ".." (or_introl eq_refl)) as (_ & _ & X & _). congruence.
  - destruct k as [|k]; cbn [ups repeat app] in E.
    + subst l. assert (X : plain_name "..") by (apply P; right; apply in_app_iff; right; left; reflexivity). destruct X as (_ & _ & X & _). congruence.
    + injection E as <- E. destruct (IH k l b P E) as (j & -> & J). exists (S j). split; [reflexivity|lia].
Qed.
Lemma after_ups : forall j k l t, (forall n, In n l -> plain_name n) -> (ups k ++ l = ups j ++ t)%list -> (forall u, t <> ".." :: u) -> k = j.
Proof.
  induction j as [|j IH]; intros k l t P E H.
  - destruct k as [|k]; [reflexivity|]. cbn [ups repeat app] in E. destruct (H _ (eq_sym E)).
  - destruct k as [|k]; cbn [ups repeat app] in E.
    + subst l. destruct (P ".." (or_introl eq_refl)) as (_ & _ & X & _). congruence.
    + f_equal. injection E as E. apply (IH k l t P); [exact E|exact H].
Qed.

(* ----- Rel ----- *)

Lemma map_ups : forall (l : list string), map (fun _ => "..") l = ups (List.length l).
Proof. induction l as [|n l IH]; [reflexivity|]. cbn. rewrite IH. reflexivity. Qed.

Lemma rel_ok : forall d m p, d <> "" -> path_rel d m = Ok p -> is_abs p = false /\ forall a, target a (d +++ String slash p) = target a m.
Proof.
  intros d m p Ne. unfold path_rel. rewrite !clean_abs. destruct (String.eqb_spec (clean m) (clean d)) as [E|_].
  - intro H. assert (p = ".") by congruence. subst p. split; [reflexivity|]. intro a. rewrite target_app by exact Ne. cbn.
    rewrite <- (clean_target d), <- (clean_target m), E. reflexivity.
  - destruct (Bool.eqb (is_abs d) (is_abs m)) eqn:A; [|discriminate]. apply Bool.eqb_prop in A. cbn [negb].
    rewrite rel_base_names. destruct (rel_target_names m) as (T & -> & NT & GT & _).
    destruct (strip_common (rev (parts d)) T) as [bs ts] eqn:S. apply strip_spec in S. destruct S as (c & B & -> & X).
    intro H.
    assert (Q : p = join_path (ups (List.length bs) ++ ts)%list /\ forall n, In n bs -> plain_name n).
    { destruct bs as [|n bs]; [split; [symmetry; change (Ok (join_path (ups (List.length (@nil string)) ++ ts)%list) = Ok p) in H; congruence|intros n []]|]. destruct (String.eqb_spec n "..") as [->|U]; [discriminate|].
      split; [rewrite <- map_ups; symmetry; congruence|]. destruct (parts_written d) as (k & l & E & P & _). rewrite E, rev_app_distr, rev_ups in B.
      apply (head_plain k (rev l) c bs n); [intros x I; apply P, in_rev; exact I|exact B|exact U]. }
    destruct Q as [-> P]. clear H.
    assert (Nm : forall n, In n (ups (List.length bs) ++ ts)%list -> n <> "" /\ no_slash n).
    { intros n I. apply in_app_iff in I. destruct I as [I|I]; [apply repeat_spec in I; subst n; split; [discriminate|repeat split; discriminate]|].
      apply NT. apply in_app_iff. right. exact I. }
    split; [apply abs_join; exact Nm|]. intro a. rewrite target_app by exact Ne. rewrite fold_join by (intros n I; apply Nm; exact I).
    rewrite parts_target, <- GT, A, B. remember (if is_abs m then [] else a) as a0. rewrite !fold_left_app. f_equal. rewrite go_ups, go_names by exact P.
    rewrite skipn_app, rev_length, Nat.sub_diag. replace (skipn (List.length bs) (rev bs)) with (@nil string); [reflexivity|].
    symmetry. rewrite <- (rev_length bs). apply skipn_all.
Qed.
Lemma rel_err : forall d m e, d <> "" -> path_rel d m = Err e -> forall p, is_abs p = false -> ~ forall a, target a (d +++ String slash p) = target a m.
Proof.
  intros d m e Ne. unfold path_rel. rewrite !clean_abs. destruct (String.eqb_spec (clean m) (clean d)) as [E|_]; [discriminate|].
  destruct (Bool.eqb (is_abs d) (is_abs m)) eqn:A; cbn [negb].
  - apply Bool.eqb_prop in A. rewrite rel_base_names. destruct (rel_target_names m) as (T & -> & NT & GT & TT).
    destruct (strip_common (rev (parts d)) T) as [bs ts] eqn:S. apply strip_spec in S. destruct S as (c & B & E & X).
    destruct bs as [|n bs]; [discriminate|]. destruct (String.eqb_spec n "..") as [->|U]; [|discriminate]. intros _ p _ H.
    destruct (parts_written d) as (k & l & Ed & P & R). rewrite Ed, rev_app_distr, rev_ups in B.
    destruct (ups_prefix c k (rev l) bs (fun x I => P x (proj2 (in_rev l x) I)) B) as (j & -> & J).
    assert (Ad : is_abs d = false) by (destruct (is_abs d); [specialize (R eq_refl); lia|reflexivity]).
    apply same_parts in H. destruct H as [_ H]. rewrite parts_under in H by exact Ne. rewrite Ad in H.
    destruct (keeps_ups (split_path p) k k (parts d)) as (i & x & F & K & PX); [apply split_names|lia|exists l; rewrite Ed; auto|].
    rewrite F in H. destruct (parts_written m) as (k' & l' & Em & P' & _). rewrite Em in H. assert (Eq := ups_counted _ _ _ _ PX P' H).
    assert (K' : k' = j).
    { destruct TT as [TT|[TT Z]].
      - rewrite TT, Em, rev_app_distr, rev_ups in E. apply (after_ups j k' (rev l') ts); [intros y I; apply P', in_rev; exact I|exact E|].
        intros u ->. destruct X as [X|[X|(y & z & u' & v & X1 & X2 & X3)]]; try discriminate. congruence.
      - rewrite Z in Em. destruct l'; [|discriminate]. destruct k'; [|discriminate]. destruct j as [|j]; [reflexivity|]. rewrite TT in E. discriminate. }
    lia.
  - intros _ p _ H. apply same_parts in H. destruct H as [H _]. rewrite abs_app in H by exact Ne. rewrite H, Bool.eqb_reflx in A. discriminate.
Qed.
Lemma rel_no_panic : forall d m p, path_rel d m <> Panic p.
Proof.
  intros d m p. unfold path_rel. destruct (String.eqb (clean m) (clean d)); [discriminate|]. destruct (negb _); [discriminate|].
  destruct (strip_common _ _) as [[|n bs] ts]; [discriminate|]. destruct (String.eqb n ".."); discriminate.
Qed.
Lemma strip_prefix : forall c t, strip_common c (c ++ t) = ([], t).
Proof. induction c as [|x c IH]; intro t; [destruct t; reflexivity|]. cbn. rewrite String.eqb_refl. apply IH. Qed.
(* What is below a directory is named by the names that lead there. *)
Lemma rel_below : forall d m l, d <> "" -> l <> [] -> (forall n, In n l -> plain_name n) ->
  (forall a, target a m = target a (d +++ String slash (slashed l))) -> path_rel d m = Ok (slashed l).
Proof.
  intros d m l Ne Nl P H. assert (Nn : forall n, In n l -> n <> "" /\ no_slash n) by (intros n I; apply P in I; unfold plain_name in I; tauto).
  assert (S := same_parts _ _ H). destruct S as [A S]. rewrite abs_app in A by exact Ne. rewrite parts_under in S by exact Ne.
  rewrite split_slashed in S; [|exact Nl|intros n I; apply Nn; exact I]. rewrite clean_names in S by exact P.
  unfold path_rel. destruct (String.eqb_spec (clean m) (clean d)) as [E|_].
  - exfalso. assert (X : parts m = parts d) by (apply same_parts; intro a; rewrite <- (clean_target m), <- (clean_target d), E; reflexivity).
    rewrite S in X. apply (f_equal (@List.length string)) in X. rewrite app_length, rev_length in X. destruct l; [congruence|cbn in X; lia].
  - rewrite !clean_abs, A, Bool.eqb_reflx. cbn [negb]. rewrite rel_base_names, rel_names_clean, S, rev_app_distr, rev_involutive.
    replace (if is_abs m then (rev (parts d) ++ l)%list else match (rev (parts d) ++ l)%list with [] => ["."] | l0 => l0 end) with (rev (parts d) ++ l)%list.
    + rewrite strip_prefix. rewrite <- slashed_join. reflexivity.
    + destruct (is_abs m); [reflexivity|]. destruct (rev (parts d) ++ l)%list as [|y r] eqn:Z; [|reflexivity].
      apply app_eq_nil in Z. destruct Z as [_ Z]. contradiction.
Qed.

(* ----- the set ----- *)

Lemma once_in : forall l s, In s (once l) <-> In s l.
Proof.
  induction l as [|x l IH]; intro s; [tauto|]. cbn [once]. destruct (existsb (String.eqb x) l) eqn:E.
  - rewrite IH. split; [right; assumption|]. intros [<-|I]; [|exact I]. apply existsb_exists in E. destruct E as (y & I & Y). apply String.eqb_eq in Y. subst y. exact I.
  - cbn [In]. rewrite IH. tauto.
Qed.
Lemma once_nodup : forall l, NoDup (once l).
Proof.
  induction l as [|x l IH]; [constructor|]. cbn [once]. destruct (existsb (String.eqb x) l) eqn:E; [exact IH|]. constructor; [|exact IH].
  rewrite once_in. intro I. assert (X : existsb (String.eqb x) l = true) by (apply existsb_exists; exists x; split; [exact I|apply String.eqb_refl]). congruence.
Qed.
