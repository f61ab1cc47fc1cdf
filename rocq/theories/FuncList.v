(* Proofs about transpose. *)

From Verif Require Import Base CtyModel FuncModel FuncSpec FuncProofs.
From Coq Require Import Lia Permutation Sorted.

(* ----- the order of strings ----- *)

Definition le (a b : string) : Prop := String.leb a b = true.

Lemma le_total : forall a b, le a b \/ le b a.
Proof. intros a b. apply String.leb_total. Qed.
Lemma le_antisym : forall a b, le a b -> le b a -> a = b.
Proof. intros a b. apply String.leb_antisym. Qed.

Lemma ascii_compare : forall a b, Ascii.compare a b = N.compare (N_of_ascii a) (N_of_ascii b).
Proof. reflexivity. Qed.

Lemma compare_trans : forall a b c, String.compare a b <> Gt -> String.compare b c <> Gt -> String.compare a c <> Gt.
Proof.
  induction a as [|x a IH]; intros [|y b] [|z c] H1 H2; cbn [String.compare] in *; try congruence.
  rewrite !ascii_compare in *.
  destruct (N.compare_spec (N_of_ascii x) (N_of_ascii y)) as [E|L|G]; [| |congruence];
  (destruct (N.compare_spec (N_of_ascii y) (N_of_ascii z)) as [E'|L'|G']; [| |congruence]);
  destruct (N.compare_spec (N_of_ascii x) (N_of_ascii z)) as [E2|L2|G2]; try discriminate;
  try (exfalso; rewrite ?E, ?E' in *; lia).
  exact (IH b c H1 H2).
Qed.

Lemma le_trans : forall a b c, le a b -> le b c -> le a c.
Proof.
  unfold le, String.leb. intros a b c H1 H2. assert (T := compare_trans a b c).
  destruct (String.compare a b), (String.compare b c), (String.compare a c); try reflexivity; try discriminate;
    exfalso; apply T; congruence.
Qed.

(* ----- sorting ----- *)

Lemma insert_perm : forall s l, Permutation (sorted_insert s l) (s :: l).
Proof.
  intros s l. induction l as [|t l IH]; [apply Permutation_refl|]. cbn [sorted_insert].
  destruct (String.leb s t); [apply Permutation_refl|].
  apply Permutation_trans with (t :: s :: l); [apply perm_skip; exact IH|apply perm_swap].
Qed.
Lemma sort_perm : forall l, Permutation (sort_strings l) l.
Proof.
  induction l as [|s l IH]; [apply perm_nil|]. cbn [sort_strings fold_right].
  apply Permutation_trans with (s :: sort_strings l); [apply insert_perm|apply perm_skip; exact IH].
Qed.
Lemma insert_sorted : forall s l, StronglySorted le l -> StronglySorted le (sorted_insert s l).
Proof.
  intros s l S. induction S as [|t l S IH F].
  - repeat constructor.
  - cbn [sorted_insert]. destruct (String.leb s t) eqn:E.
    + constructor; [constructor; assumption|]. constructor; [exact E|].
      apply Forall_impl with (2 := F). intros x L. exact (le_trans s t x E L).
    + constructor; [exact IH|].
      assert (Lt : le t s) by (destruct (le_total s t) as [X|X]; [unfold le in X; congruence|exact X]).
      apply Forall_forall. intros x I. apply (Permutation_in x (insert_perm s l)) in I.
      destruct I as [<-|I]; [exact Lt|]. rewrite Forall_forall in F. exact (F x I).
Qed.
Lemma sort_sorted : forall l, StronglySorted le (sort_strings l).
Proof. induction l as [|s l IH]; [constructor|]. apply insert_sorted. exact IH. Qed.

Definition count (s : string) (l : list string) : nat := count_occ string_dec l s.

Lemma count_perm : forall s l l', Permutation l l' -> count s l = count s l'.
Proof. intros s l l' P. unfold count. apply (proj1 (Permutation_count_occ string_dec l l') P). Qed.
Lemma count_sort : forall s l, count s (sort_strings l) = count s l.
Proof. intros s l. apply count_perm, sort_perm. Qed.

(* Sorted lists with the same elements are the same. *)
Lemma sorted_same : forall l l', StronglySorted le l -> StronglySorted le l' -> (forall s, count s l = count s l') -> l = l'.
Proof.
  intros l l' S S' H. apply (Permutation_count_occ string_dec) in H. revert l' S' H.
  induction S as [|x l S IH F]; intros l' S' P.
  - apply Permutation_nil in P. symmetry. exact P.
  - destruct S' as [|y l' S' F']; [symmetry in P; apply Permutation_nil in P; discriminate|].
    assert (x = y) as <-.
    { apply le_antisym.
      - assert (I : In y (x :: l)) by (apply (Permutation_in y (Permutation_sym P)); left; reflexivity).
        destruct I as [<-|I]; [destruct (le_total x x); assumption|]. rewrite Forall_forall in F. exact (F y I).
      - assert (I : In x (y :: l')) by (apply (Permutation_in x P); left; reflexivity).
        destruct I as [<-|I]; [destruct (le_total y y); assumption|]. rewrite Forall_forall in F'. exact (F' x I). }
    f_equal. apply IH; [exact S'|]. apply Permutation_cons_inv with x. exact P.
Qed.

(* ----- one list of values ----- *)

Definition table := list (string * list string).

Lemma entry_insert : forall (m : table) k l k', entry (insert k l m) k' = if string_dec k' k then l else entry m k'.
Proof.
  intros m k l k'. unfold entry. destruct (string_dec k' k) as [->|N].
  - rewrite lookup_insert_eq. reflexivity.
  - rewrite lookup_insert_ne by exact N. reflexivity.
Qed.

Definition good (tmp : table) : Prop := NoDup (keys tmp) /\
  forall v l, lookup v tmp = Some l -> StronglySorted le l /\ l <> [].

Lemma sort_nil : forall l, sort_strings l = [] -> l = [].
Proof. intros l E. assert (P := sort_perm l). rewrite E in P. apply Permutation_nil. exact P. Qed.

Lemma transpose_list_spec : forall key vals tmp, good tmp ->
  good (transpose_list key vals tmp) /\
  forall v k, count k (entry (transpose_list key vals tmp) v)
    = (count k (entry tmp v) + if string_dec k key then count v vals else 0)%nat.
Proof.
  intros key vals. unfold transpose_list. induction vals as [|x vals IH]; intros tmp G.
  - split; [exact G|]. intros v k. cbn. destruct (string_dec k key); lia.
  - cbn [fold_left]. set (new := sort_strings (entry tmp x ++ [key])).
    assert (G' : good (insert x new tmp)).
    { destruct G as [N S]. split; [apply NoDup_keys_insert; exact N|]. intros v l E.
      destruct (string_dec v x) as [->|D].
      - rewrite lookup_insert_eq in E. injection E as <-. split; [apply sort_sorted|].
        intros X. apply sort_nil in X. destruct (entry tmp x); discriminate.
      - rewrite lookup_insert_ne in E by exact D. exact (S v l E). }
    destruct (IH _ G') as [G2 C]. split; [exact G2|]. intros v k. rewrite C, entry_insert.
    unfold count at 3. cbn [count_occ]. destruct (string_dec v x) as [->|D].
    + unfold new. rewrite count_sort. unfold count. rewrite count_occ_app. cbn [count_occ].
      destruct (string_dec x x) as [_|X]; [|congruence].
      destruct (string_dec key k) as [E|E]; destruct (string_dec k key) as [E'|E']; try congruence; lia.
    + unfold count. cbn [count_occ]. destruct (string_dec x v) as [X|_]; [congruence|]. destruct (string_dec k key); lia.
Qed.

(* ----- the whole map ----- *)

(* The elements of a map of lists of strings. *)
Definition string_map (l : list (string * value)) (m : table) : Prop :=
  Forall2 (fun kv kl => fst kv = fst kl /\ exists ms t xs, snd kv = Val ms (SList t) xs
    /\ Forall2 (fun x s => exists ms', snd x = Val ms' (SStr s) []) xs (snd kl)) l m.

Lemma string_map_keys : forall l m, string_map l m -> keys l = keys m.
Proof. intros l m F. induction F as [|kv kl l m [E _] F IH]; [reflexivity|]. cbn. rewrite E. f_equal. exact IH. Qed.

Lemma strings_of_spec : forall xs ss, Forall2 (fun x s => exists ms', snd x = Val ms' (SStr s) []) xs ss ->
  strings_of (unmark_all xs) = Ok ss.
Proof.
  intros xs ss F. induction F as [|[k x] s xs ss (ms' & E) F IH]; [reflexivity|].
  cbn [snd] in E. subst x. cbn [unmark_all map fst snd unmark_deep strings_of as_string bindr].
  unfold unmark_all in IH. rewrite IH. reflexivity.
Qed.

Lemma transpose_loop_spec : forall l m tmp, string_map l m -> good tmp -> NoDup (keys m) ->
  exists out, transpose_loop (unmark_all l) tmp = Ok out /\ good out
  /\ forall v k, count k (entry out v) = (count k (entry tmp v) + count v (entry m k))%nat.
Proof.
  intros l m tmp F. revert tmp. induction F as [|[k0 v0] [k1 ss] l m (E & ms & t & xs & Ev & Fx) F IH]; intros tmp G N.
  - exists tmp. split; [reflexivity|]. split; [exact G|]. intros v k. cbn. lia.
  - cbn [fst snd] in *. subst k1 v0. cbn [unmark_all map fst snd]. rewrite unmark_deep_eq.
    cbn [transpose_loop iterate bindr]. rewrite (strings_of_spec xs ss Fx). cbn [bindr].
    destruct (transpose_list_spec k0 ss tmp G) as [G' C].
    cbn [keys map fst] in N. inversion N as [|? ? Nk N']; subst.
    destruct (IH _ G' N') as (out & R & Go & Co). exists out. split; [exact R|]. split; [exact Go|].
    intros v k. rewrite Co, C. unfold entry at 4. cbn [lookup]. destruct (eq_dec k k0) as [->|D].
    + destruct (string_dec k0 k0) as [_|X]; [|congruence].
      assert (Z : entry m k0 = []).
      { unfold entry. destruct (lookup k0 m) as [x|] eqn:L; [|reflexivity]. exfalso. apply Nk.
        apply lookup_Some_key. eauto. }
      rewrite Z. cbn. lia.
    + destruct (string_dec k k0) as [X|_]; [congruence|]. unfold entry. lia.
Qed.

Lemma strings_val_map : forall m, string_map (map (fun kl => (fst kl, strings_val (snd kl))) m) m.
Proof.
  induction m as [|[k ss] m IH]; constructor; [|exact IH]. cbn [fst snd]. split; [reflexivity|].
  exists [], str, (named (map str_val ss)). split; [reflexivity|].
  clear. induction ss as [|s ss IH]; constructor; [exists []; reflexivity|exact IH].
Qed.

Lemma string_map_known : forall ms t l m, string_map l m -> wholly_known (Val ms (SMap t) l) = true.
Proof.
  intros ms t l m F. cbn [wholly_known]. induction F as [|[k v] kl l m (_ & ms0 & t0 & xs & E & Fx) F IH]; [reflexivity|].
  cbn [snd] in E. subst v. rewrite IH, andb_true_r. cbn [wholly_known]. clear -Fx.
  induction Fx as [|[k x] s xs ss (ms' & E) F IH]; [reflexivity|]. cbn [snd] in E. subst x. exact IH.
Qed.

Lemma call_transpose : forall early ms l m, string_map l m -> NoDup (keys m) ->
  exists out, call early transpose_func [Val ms (SMap (list_of str)) l]
    = Ok (with_marks (deep_marks (Val ms (SMap (list_of str)) l))
           (Val [] (SMap (list_of str)) (map (fun kl => (fst kl, strings_val (snd kl))) out)))
  /\ good out /\ forall v k, count k (entry out v) = count v (entry m k).
Proof.
  intros early ms l m F N.
  destruct (transpose_loop_spec l m [] F) as (out & R & G & C); [split; [constructor|discriminate]|exact N|].
  exists out. split; [|split; [exact G|intros v k; rewrite C; reflexivity]].
  unfold call, transpose_func. cbn [f_params f_var pair_args check_args].
  change (is_null (Val ms (SMap (list_of str)) l)) with false.
  change (kind_eqb (kind_of (type_of (Val ms (SMap (list_of str)) l))) KDyn) with false.
  change (conforms (type_of (Val ms (SMap (list_of str)) l)) (p_type (plain_param (map_of (list_of str))))) with true.
  cbn [andb negb bindr map f_type static no_panic existsb]. unfold unknown_arg. cbn [fst snd].
  change (is_known (Val ms (SMap (list_of str)) l)) with true. cbn [negb andb orb flat_map].
  unfold seen, taken_marks. cbn [fst snd p_marked plain_param f_impl]. rewrite app_nil_r.
  rewrite known_unmark, (string_map_known _ _ _ _ F). cbn [negb]. rewrite unmark_deep_eq. cbn [iterate bindr].
  rewrite R. reflexivity.
Qed.
