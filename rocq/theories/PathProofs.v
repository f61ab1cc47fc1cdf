(* Lemmas about paths. *)

From Verif Require Import Base CtyModel FuncModel EncModel PathModel PathSpec.
From Coq Require Import Lia.

(* ----- Names ----- *)

Lemma split_nonempty : forall p, split_path p <> [].
Proof.
  induction p as [|c p IH]; cbn; [discriminate|]. destruct (split_path p); [congruence|]. destruct (Ascii.eqb c slash); discriminate.
Qed.
Lemma slashed_join : forall l, slashed l = join_path l.
Proof. induction l as [|n [|m l] IH]; [reflexivity..|]. cbn [slashed join_path] in *. rewrite IH. reflexivity. Qed.
Lemma split_names : forall p, names p (split_path p).
Proof.
  intro p. split; [apply split_nonempty|]. induction p as [|c p [IH E]].
  - split; [|reflexivity]. intros n [<-|[]]. exact Logic.I.
  - assert (N := split_nonempty p). cbn [split_path]. destruct (split_path p) as [|n l]; [congruence|].
    destruct (Ascii.eqb_spec c slash) as [->|Ne].
    + split; [intros m [<-|I]; [exact Logic.I|auto]|]. rewrite E. reflexivity.
    + split; [intros m [<-|I]; [split; [exact Ne|apply IH; left; reflexivity]|apply IH; right; exact I]|].
      rewrite E. destruct l; reflexivity.
Qed.
Lemma split_name : forall n s, no_slash n -> split_path (n +++ s) = match split_path s with m :: l => (n +++ m) :: l | [] => [] end.
Proof.
  induction n as [|c n IH]; intros s N; cbn [append split_path].
  - assert (X := split_nonempty s). destruct (split_path s); [congruence|reflexivity].
  - destruct N as [Ne N]. rewrite IH by exact N. assert (X := split_nonempty s). destruct (split_path s); [congruence|].
    destruct (Ascii.eqb_spec c slash); [contradiction|reflexivity].
Qed.
Lemma app_empty : forall s, s +++ "" = s.
Proof. induction s as [|c s IH]; cbn; [reflexivity|rewrite IH; reflexivity]. Qed.
Lemma split_one : forall n, no_slash n -> split_path n = [n].
Proof. intros n N. rewrite <- (app_empty n) at 1. rewrite split_name by exact N. cbn. rewrite app_empty. reflexivity. Qed.
Lemma split_slash : forall s, split_path (String slash s) = "" :: split_path s.
Proof. intro s. cbn. assert (X := split_nonempty s). destruct (split_path s); [congruence|reflexivity]. Qed.
Lemma slashed_cons : forall n m l, slashed (n :: m :: l) = n +++ String slash (slashed (m :: l)).
Proof. reflexivity. Qed.
Lemma split_slashed : forall l, l <> [] -> (forall n, In n l -> no_slash n) -> split_path (slashed l) = l.
Proof.
  induction l as [|n [|m l] IH]; intros Ne H; [congruence| |].
  - apply split_one. apply H. left. reflexivity.
  - rewrite slashed_cons, split_name by (apply H; left; reflexivity).
    rewrite split_slash, IH; [rewrite app_empty; reflexivity|discriminate|]. intros x I. apply H. right. exact I.
Qed.
Lemma names_iff : forall p l, names p l <-> l = split_path p.
Proof.
  intros p l. split; [|intros ->; apply split_names]. intros (Ne & H & ->). symmetry. apply split_slashed; assumption.
Qed.
Lemma app_assoc_string : forall a b c, (a +++ b) +++ c = a +++ (b +++ c).
Proof. induction a as [|x a IH]; intros b c; cbn; [reflexivity|rewrite IH; reflexivity]. Qed.
Lemma split_app : forall a b, split_path (a +++ String slash b) = (split_path a ++ split_path b)%list.
Proof.
  intros a b. assert (N := split_names a). destruct N as (_ & N & E). assert (Ne := split_nonempty a).
  rewrite E at 1. clear E. induction (split_path a) as [|n [|m l] IH]; [congruence| |].
  - cbn [slashed]. rewrite split_name by (apply N; left; reflexivity). rewrite split_slash. cbn. rewrite app_empty. reflexivity.
  - rewrite slashed_cons, app_assoc_string, split_name by (apply N; left; reflexivity). cbn [append].
    rewrite split_slash, IH; [rewrite app_empty; reflexivity|intros x I; apply N; right; exact I|discriminate].
Qed.
Lemma rooted_iff : forall p, is_abs p = true <-> rooted p.
Proof.
  intros [|c p]; cbn; split; [discriminate|intros [q E]; discriminate| |].
  - intro E. apply Ascii.eqb_eq in E. subst c. exists p. reflexivity.
  - intros [q [= -> ->]]. apply Ascii.eqb_refl.
Qed.

(* ----- Walking ----- *)

Definition go (a : place) (n : string) : place :=
  if String.eqb n "" || String.eqb n "." then a else if String.eqb n ".." then tl a else n :: a.
Lemma step_iff : forall a n b, step a n b <-> b = go a n.
Proof.
  intros a n b. unfold go. split.
  - intros [x|x|m x| |x m E D U]; try reflexivity. apply String.eqb_neq in E, D, U. rewrite E, D, U. reflexivity.
  - intros ->. destruct (String.eqb_spec n "") as [->|E]; [constructor|]. destruct (String.eqb_spec n ".") as [->|D]; [constructor|]. cbn [orb].
    destruct (String.eqb_spec n "..") as [->|U]; [destruct a; constructor|]. constructor; assumption.
Qed.
Lemma walk_iff : forall l a b, walk a l b <-> b = fold_left go l a.
Proof.
  induction l as [|n l IH]; intros a b; cbn.
  - split; [intro W; inversion W; reflexivity|intros ->; constructor].
  - split; [intro W; inversion W as [|a' n' m l' c S W']; subst; apply step_iff in S; subst; apply IH; exact W'|].
    intros ->. apply walk_on with (go a n); [apply step_iff; reflexivity|]. apply IH. reflexivity.
Qed.
Definition target (a : place) (p : string) : place := fold_left go (split_path p) (if is_abs p then [] else a).
Lemma leads_iff : forall a p b, leads a p b <-> b = target a p.
Proof.
  intros a p b. unfold leads, target. split.
  - intros (l & N & W). apply names_iff in N. subst l. destruct W as [[R W]|[R W]]; apply walk_iff in W; subst b.
    + apply rooted_iff in R. rewrite R. reflexivity.
    + destruct (is_abs p) eqn:E; [apply rooted_iff in E; contradiction|reflexivity].
  - intros ->. exists (split_path p). split; [apply split_names|]. destruct (is_abs p) eqn:E.
    + left. split; [apply rooted_iff; exact E|apply walk_iff; reflexivity].
    + right. split; [intro R; apply rooted_iff in R; congruence|apply walk_iff; reflexivity].
Qed.
Lemma same_iff : forall p q, same_paths p q <-> forall a, target a p = target a q.
Proof.
  intros p q. unfold same_paths. setoid_rewrite leads_iff. split.
  - intros H a. apply H. reflexivity.
  - intros H a b. rewrite H. reflexivity.
Qed.

(* ----- Clean ----- *)

Definition ups (k : nat) : list string := repeat ".." k.
(* What has been written: names on top of ".."s. *)
Definition written (r : bool) (out : list string) : Prop := exists k l, out = (l ++ ups k)%list /\ (forall n, In n l -> plain_name n) /\ (r = true -> k = 0%nat).
Lemma written_part : forall r out n, no_slash n -> written r out -> written r (clean_part r out n).
Proof.
  intros r out n NS (k & l & -> & P & R). unfold clean_part.
  destruct (String.eqb_spec n "") as [->|E]; [exists k, l; auto|]. destruct (String.eqb_spec n ".") as [->|D]; [exists k, l; auto|]. cbn [orb].
  destruct (String.eqb_spec n "..") as [->|U].
  - destruct l as [|m l]; cbn [app].
    + destruct k as [|k]; cbn [ups repeat].
      * destruct r; [exists 0%nat, []; auto|]. exists 1%nat, []. split; [reflexivity|]. split; [intros x []|discriminate].
      * destruct r; [discriminate (R eq_refl)|]. exists (S (S k)), []. split; [reflexivity|]. split; [intros x []|discriminate].
    + destruct (P m (or_introl eq_refl)) as (_ & _ & U & _). apply String.eqb_neq in U. rewrite U.
      exists k, l. split; [reflexivity|]. split; [intros x I; apply P; right; exact I|exact R].
  - exists k, (n :: l). split; [reflexivity|]. split; [|exact R]. intros x [<-|I]; [repeat split; assumption|auto].
Qed.
Lemma written_parts : forall r l out, (forall n, In n l -> no_slash n) -> written r out -> written r (fold_left (clean_part r) l out).
Proof.
  induction l as [|n l IH]; intros out H W; [exact W|]. cbn. apply IH; [intros x I; apply H; right; exact I|].
  apply written_part; [apply H; left; reflexivity|exact W].
Qed.
Lemma go_plain : forall a n, plain_name n -> go a n = n :: a.
Proof. intros a n (E & D & U & _). apply String.eqb_neq in E, D, U. unfold go. rewrite E, D, U. reflexivity. Qed.
Lemma part_go : forall r out n a, written r out -> (r = true -> a = []) -> fold_left go (rev (clean_part r out n)) a = go (fold_left go (rev out) a) n.
Proof.
  intros r out n a (k & l & -> & P & R) A. unfold clean_part. remember (fold_left go (rev (l ++ ups k)) a) as b eqn:B. unfold go at 2.
  destruct (String.eqb n "" || String.eqb n ".") eqn:E; [symmetry; exact B|]. destruct (String.eqb_spec n "..") as [->|U].
  - destruct l as [|m l]; cbn [app] in *.
    + destruct k as [|k]; cbn [ups repeat] in *.
      * cbn in B. subst b. destruct r; [rewrite (A eq_refl); reflexivity|reflexivity].
      * rewrite String.eqb_refl. subst b. cbn [rev]. rewrite (fold_left_app _ (_ ++ _)%list). reflexivity.
    + assert (Pm := P m (or_introl eq_refl)). destruct (Pm) as (_ & _ & U & _). apply String.eqb_neq in U. rewrite U.
      subst b. cbn [rev]. rewrite fold_left_app. cbn [fold_left]. rewrite go_plain by exact Pm. reflexivity.
  - cbn [rev]. rewrite fold_left_app, <- B. cbn [fold_left]. unfold go.
    apply String.eqb_neq in U. rewrite E, U. reflexivity.
Qed.
Lemma parts_go : forall r l out a, (forall n, In n l -> no_slash n) -> written r out -> (r = true -> a = []) ->
  fold_left go (rev (fold_left (clean_part r) l out)) a = fold_left go l (fold_left go (rev out) a).
Proof.
  induction l as [|n l IH]; intros out a H W A; [reflexivity|]. cbn [fold_left]. rewrite IH.
  - rewrite part_go by assumption. reflexivity.
  - intros x I. apply H. right. exact I.
  - apply written_part; [apply H; left; reflexivity|exact W].
  - exact A.
Qed.
Definition parts (p : string) : list string := fold_left (clean_part (is_abs p)) (split_path p) [].
Lemma written_nil : forall r, written r [].
Proof. intro r. exists 0%nat, []. split; [reflexivity|]. split; [intros x []|reflexivity]. Qed.
Lemma parts_written : forall p, written (is_abs p) (parts p).
Proof. intro p. apply written_parts; [apply split_names|apply written_nil]. Qed.
Lemma parts_target : forall p a, target a p = fold_left go (rev (parts p)) (if is_abs p then [] else a).
Proof.
  intros p a. unfold target, parts. symmetry. apply (parts_go (is_abs p) (split_path p) []); [apply split_names|apply written_nil|].
  intros ->. reflexivity.
Qed.
Lemma written_names : forall r out, written r out -> forall n, In n (rev out) -> n <> "" /\ no_slash n.
Proof.
  intros r out (k & l & -> & P & _) n I. apply in_rev in I. apply in_app_iff in I. destruct I as [I|I].
  - apply P in I. unfold plain_name in I. tauto.
  - apply repeat_spec in I. subst n. split; [discriminate|]. cbn. repeat split; discriminate.
Qed.
Lemma fold_join : forall l a, (forall n, In n l -> no_slash n) -> fold_left go (split_path (join_path l)) a = fold_left go l a.
Proof.
  intros l a H. destruct l as [|n l]; [reflexivity|]. rewrite <- slashed_join, split_slashed; [reflexivity|discriminate|exact H].
Qed.
Lemma abs_join : forall l, (forall n, In n l -> n <> "" /\ no_slash n) -> is_abs (join_path l) = false.
Proof.
  intros [|n l] H; [reflexivity|]. destruct (H n (or_introl eq_refl)) as [E S]. destruct n as [|c n]; [congruence|]. destruct S as [S _].
  assert (X : exists t, join_path (String c n :: l) = String c t) by (destruct l; eexists; reflexivity). destruct X as [t ->]. cbn.
  apply Ascii.eqb_neq. exact S.
Qed.
Lemma clean_target : forall p a, target a (clean p) = target a p.
Proof.
  intros p a. rewrite (parts_target p). assert (W := parts_written p). assert (N := written_names _ _ W). unfold clean. fold (parts p).
  destruct (is_abs p) eqn:A.
  - unfold target. rewrite split_slash. cbn [is_abs]. rewrite Ascii.eqb_refl. cbn [fold_left]. change (go [] "") with (@nil string).
    apply fold_join. apply N.
  - destruct (rev (parts p)) as [|n l] eqn:E; [reflexivity|]. unfold target. rewrite abs_join by exact N. apply fold_join. apply N.
Qed.
Lemma go_ups : forall k a, fold_left go (ups k) a = skipn k a.
Proof. induction k as [|k IH]; intro a; [reflexivity|]. cbn [ups repeat fold_left]. fold (ups k). rewrite IH. destruct a; [destruct k; reflexivity|reflexivity]. Qed.
Lemma go_names : forall l a, (forall n, In n l -> plain_name n) -> fold_left go l a = (rev l ++ a)%list.
Proof.
  induction l as [|n l IH]; intros a H; [reflexivity|]. cbn [fold_left rev]. rewrite go_plain by (apply H; left; reflexivity).
  rewrite IH by (intros x I; apply H; right; exact I). rewrite <- app_assoc. reflexivity.
Qed.
Lemma written_go : forall k l a, (forall n, In n l -> plain_name n) -> fold_left go (rev (l ++ ups k)) a = (l ++ skipn k a)%list.
Proof.
  intros k l a H. rewrite rev_app_distr, fold_left_app. unfold ups at 1. replace (rev (repeat ".." k)) with (ups k).
  - rewrite go_ups, go_names by (intros n I; apply H, in_rev; exact I). rewrite rev_involutive. reflexivity.
  - unfold ups. clear. induction k as [|k IH]; [reflexivity|]. cbn [repeat rev]. rewrite <- IH. clear. induction k as [|k IH]; [reflexivity|].
    cbn [repeat app]. rewrite <- IH. reflexivity.
Qed.
Lemma clean_same : forall p q, (forall a, target a p = target a q) -> clean p = clean q.
Proof.
  intros p q H. assert (X : is_abs p = is_abs q /\ parts p = parts q).
  { destruct (parts_written p) as (k & l & E & P & R), (parts_written q) as (k' & l' & E' & P' & R').
    assert (G : forall a, (l ++ skipn k (if is_abs p then [] else a) = l' ++ skipn k' (if is_abs q then [] else a))%list).
    { intro a. rewrite <- (written_go k l _ P), <- (written_go k' l' _ P'), <- E, <- E', <- !parts_target. apply H. }
    assert (L : l = l') by (specialize (G []); destruct (is_abs p), (is_abs q); rewrite !skipn_nil, !app_nil_r in G; exact G).
    subst l'. assert (G2 := G (repeat "" (k + k' + 1))). apply app_inv_head in G2. apply (f_equal (@List.length string)) in G2.
    rewrite !skipn_length in G2. rewrite E, E'.
    destruct (is_abs p), (is_abs q); cbn [List.length] in G2; rewrite ?repeat_length in G2; try lia.
    - rewrite (R eq_refl), (R' eq_refl). auto.
    - assert (k = k') by lia. subst k'. auto. }
  destruct X as [A B]. unfold clean. fold (parts p). fold (parts q). rewrite A, B. reflexivity.
Qed.
Lemma clean_shortest : forall p, shortest (clean p).
Proof.
  intro p. unfold clean. fold (parts p). destruct (parts_written p) as (k & l & E & P & R). rewrite E, rev_app_distr.
  assert (U : rev (ups k) = ups k).
  { unfold ups. clear. induction k as [|k IH]; [reflexivity|]. cbn [repeat rev]. rewrite IH. clear. induction k as [|k IH]; [reflexivity|].
    cbn [repeat app]. rewrite IH. reflexivity. }
  rewrite U. assert (Q : forall n, In n (rev l) -> plain_name n) by (intros n I; apply P, in_rev; exact I).
  destruct (is_abs p).
  - rewrite (R eq_refl). cbn [ups repeat app]. destruct (rev l) as [|n m] eqn:D; [constructor|].
    rewrite <- slashed_join. apply sh_absolute; [discriminate|exact Q].
  - assert (D : (ups k ++ rev l)%list = [] \/ (ups k ++ rev l)%list <> []) by (destruct (ups k ++ rev l)%list; [left; reflexivity|right; discriminate]).
    destruct D as [D|D]; [rewrite D; constructor|]. assert (S : shortest (slashed (ups k ++ rev l))) by (apply sh_relative; assumption).
    rewrite slashed_join in S. destruct (ups k ++ rev l)%list; [congruence|exact S].
Qed.
(* The shortest path is the clean one. *)
Lemma clean_names : forall r l out, (forall n, In n l -> plain_name n) -> fold_left (clean_part r) l out = (rev l ++ out)%list.
Proof.
  induction l as [|n l IH]; intros out H; [reflexivity|]. cbn [fold_left rev]. destruct (H n (or_introl eq_refl)) as (E & D & U & _).
  apply String.eqb_neq in E, D, U. unfold clean_part at 2. rewrite E, D, U. cbn [orb].
  rewrite IH by (intros x I; apply H; right; exact I). rewrite <- app_assoc. reflexivity.
Qed.
Lemma clean_ups : forall k j, fold_left (clean_part false) (ups k) (ups j) = ups (k + j).
Proof.
  induction k as [|k IH]; intro j; [reflexivity|]. cbn [ups repeat fold_left]. change (repeat ".." k) with (ups k).
  replace (clean_part false (ups j) "..") with (ups (S j)) by (destruct j; reflexivity). rewrite IH. f_equal. lia.
Qed.
Lemma rev_ups : forall k, rev (ups k) = ups k.
Proof.
  unfold ups. induction k as [|k IH]; [reflexivity|]. cbn [repeat rev]. rewrite IH. clear. induction k as [|k IH]; [reflexivity|].
  cbn [repeat app]. rewrite IH. reflexivity.
Qed.
Lemma clean_fixed : forall p, shortest p -> clean p = p.
Proof.
  intros p [| |l Ne P|k l Ne P]; [reflexivity|reflexivity| |].
  - unfold clean. change ("/" +++ slashed l) with (String slash (slashed l)). cbn [is_abs]. rewrite Ascii.eqb_refl, split_slash.
    rewrite split_slashed; [|exact Ne|intros n I; apply P in I; unfold plain_name in I; tauto]. cbn [fold_left]. change (clean_part true [] "") with (@nil string).
    rewrite clean_names by exact P. rewrite app_nil_r. rewrite rev_involutive. rewrite <- slashed_join. reflexivity.
  - assert (N : forall n, In n (ups k ++ l)%list -> n <> "" /\ no_slash n).
    { intros n I. apply in_app_iff in I. destruct I as [I|I]; [|apply P in I; unfold plain_name in I; tauto].
      apply repeat_spec in I. subst n. split; [discriminate|]. cbn. repeat split; discriminate. }
    assert (A : is_abs (slashed (ups k ++ l)) = false) by (rewrite slashed_join; apply abs_join; exact N).
    unfold clean. change (repeat ".." k) with (ups k) in *. rewrite A, split_slashed; [|exact Ne|intros n I; apply N; exact I].
    rewrite fold_left_app. change (fold_left (clean_part false) (ups k) []) with (fold_left (clean_part false) (ups k) (ups 0)).
    rewrite clean_ups, Nat.add_0_r, clean_names by exact P. rewrite rev_app_distr, rev_involutive, rev_ups.
    destruct (ups k ++ l)%list; [congruence|reflexivity].
Qed.

(* ----- Joining and cutting ----- *)

Lemma abs_app : forall a b, a <> "" -> is_abs (a +++ b) = is_abs a.
Proof. intros [|c a] b Ne; [congruence|reflexivity]. Qed.
Lemma target_app : forall a x b, x <> "" -> target a (x +++ String slash b) = fold_left go (split_path b) (target a x).
Proof. intros a x b Ne. unfold target. rewrite split_app, fold_left_app, abs_app by exact Ne. reflexivity. Qed.
Lemma target_relative : forall a b, is_abs b = false -> target a b = fold_left go (split_path b) a.
Proof. intros a b A. unfold target. rewrite A. reflexivity. Qed.
Lemma target_empty : forall a, target a "" = a.
Proof. reflexivity. Qed.
Lemma target_join : forall a x b, is_abs b = false -> target a (path_join x b) = target (target a x) b.
Proof.
  intros a x b A. unfold path_join. destruct (String.eqb_spec x "") as [->|Ne].
  - destruct (String.eqb_spec b "") as [->|Nb]; [reflexivity|]. rewrite clean_target. reflexivity.
  - rewrite clean_target, target_app by assumption. symmetry. apply target_relative. exact A.
Qed.
Lemma cut_none : forall n, no_slash n -> cut_last n = ("", n).
Proof.
  induction n as [|c n IH]; intro N; [reflexivity|]. destruct N as [Ne N]. cbn [cut_last]. rewrite IH by exact N. cbn [String.eqb].
  destruct (Ascii.eqb_spec c slash); [contradiction|reflexivity].
Qed.
Lemma cut_slash : forall d n, no_slash n -> cut_last (d +++ String slash n) = (d +++ String slash "", n).
Proof.
  induction d as [|c d IH]; intros n N; cbn [append cut_last].
  - rewrite cut_none by exact N. reflexivity.
  - rewrite IH by exact N. assert (X : exists x t, d +++ String slash "" = String x t) by (destruct d; eexists; eexists; reflexivity).
    destruct X as (x & t & ->). reflexivity.
Qed.
Lemma cut_cases : forall p, no_slash p \/ exists d n, p = d +++ String slash n /\ no_slash n.
Proof.
  induction p as [|c p [N|(d & n & -> & N)]]; [left; exact Logic.I| |].
  - destruct (Ascii.eqb_spec c slash) as [->|Ne]; [right; exists "", p; auto|left; split; assumption].
  - right. exists (String c d), n. auto.
Qed.
Lemma strip_end : forall p k, (p = "" \/ exists d c, p = d +++ String c "" /\ c <> "/"%char) -> strip_slashes (p +++ slashes k) = p.
Proof.
  assert (Z : forall k, strip_slashes (slashes k) = "") by (induction k as [|k IH]; [reflexivity|cbn; rewrite IH; reflexivity]).
  intros p k [->|(d & c & -> & Ne)]; [apply Z|]. induction d as [|x d IH].
  - cbn. rewrite Z. destruct (Ascii.eqb_spec c slash); [contradiction|reflexivity].
  - cbn [append strip_slashes]. rewrite IH. assert (X : exists y t, d +++ String c "" = String y t) by (destruct d; eexists; eexists; reflexivity).
    destruct X as (y & t & ->). reflexivity.
Qed.
Lemma name_end : forall d n, n <> "" -> no_slash n -> exists d' c, d +++ n = d' +++ String c "" /\ c <> "/"%char.
Proof.
  intros d n Ne N. assert (X : exists m c, n = m +++ String c "" /\ c <> "/"%char).
  { induction n as [|c n IH]; [congruence|]. destruct N as [Nc N]. destruct n as [|c' n]; [exists "", c; auto|].
    destruct (IH ltac:(discriminate) N) as (m & x & -> & H). exists (String c m), x. auto. }
  destruct X as (m & c & -> & H). exists (d +++ m), c. rewrite app_assoc_string. auto.
Qed.
Lemma base_of : forall d n k, n <> "" -> no_slash n -> path_base ((d +++ String slash n) +++ slashes k) = n /\ path_base (n +++ slashes k) = n.
Proof.
  intros d n k Ne N. assert (G : forall p, (exists d' c, p = d' +++ String c "" /\ c <> "/"%char) -> snd (cut_last p) = n -> path_base (p +++ slashes k) = n).
  { intros p E C. unfold path_base. destruct (String.eqb_spec (p +++ slashes k) "") as [X|_].
    - destruct E as (d' & c & -> & _). destruct d'; discriminate.
    - rewrite strip_end by (right; exact E). rewrite C. destruct n; [congruence|reflexivity]. }
  split; apply G.
  - change (String slash n) with (String slash "" +++ n). rewrite <- app_assoc_string. apply name_end; assumption.
  - rewrite cut_slash by exact N. reflexivity.
  - apply (name_end "" n Ne N).
  - rewrite cut_none by exact N. reflexivity.
Qed.
