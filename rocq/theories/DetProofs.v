(* Proofs about the model of det/unmarshal.go. *)

From Verif Require Import Base GoType SpecModel CollectModel CollectSpec CollectProofs DetModel DetSpec.

(* --------------------------------------------------------- paths and updates *)

Lemma path_eqb_eq : forall p q, path_eqb p q = true <-> p = q.
Proof.
  induction p as [|x p IH]; intros [|y q]; simpl; split; intros H; try discriminate; try reflexivity.
  - apply andb_true_iff in H as [H1 H2]. apply String.eqb_eq in H1. apply IH in H2. congruence.
  - inversion H; subst. rewrite String.eqb_refl. apply IH. reflexivity.
Qed.

Lemma fields_upd_eq : forall v p x, fields_of (upd v p x) p = x.
Proof.
  intros v p x. simpl. replace (path_eqb p p) with true; [reflexivity|]. symmetry; apply path_eqb_eq; reflexivity.
Qed.

Lemma fields_upd_ne : forall v p x q, q <> p -> fields_of (upd v p x) q = fields_of v q.
Proof.
  intros v p x q H. simpl. destruct (path_eqb q p) eqn:Ep; [|reflexivity]. apply path_eqb_eq in Ep; contradiction.
Qed.

Lemma lookup_map_snd : forall A B (g : A -> B) (m : list (string * A)) k,
  lookup k (map (fun kv => (fst kv, g (snd kv))) m) = option_map g (lookup k m).
Proof.
  intros A B g m k; induction m as [|[k' v] m IH]; simpl; [reflexivity|].
  destruct (eq_dec k k'); [reflexivity|exact IH].
Qed.

Lemma keys_map_snd : forall A B (g : A -> B) (m : list (string * A)),
  keys (map (fun kv => (fst kv, g (snd kv))) m) = keys m.
Proof. intros A B g m. unfold keys. rewrite map_map. reflexivity. Qed.

(* ---------------------------------------------------------------- smallest key *)

Lemma bytes_le_leb : forall s t, String.leb s t = true <-> bytes_le s t.
Proof.
  unfold String.leb. induction s as [|c s IH]; intros t.
  - split; intros _; [constructor|]. destruct t; reflexivity.
  - destruct t as [|d t]; simpl.
    + split; [discriminate|]. intros H; inversion H.
    + unfold Ascii.compare. destruct (N.compare (N_of_ascii c) (N_of_ascii d)) eqn:Ec.
      * apply N.compare_eq in Ec.
        assert (c = d) as ->. { apply byte_of_inj. unfold byte_of. rewrite Ec. reflexivity. }
        rewrite IH. split; intros H; [constructor; exact H|].
        inversion H as [|? ? ? ? Hl|]; subst; [lia|assumption].
      * split; [intros _|reflexivity]. apply bl_lt. rewrite N.compare_lt_iff in Ec. unfold byte_of. lia.
      * split; [discriminate|]. intros H. rewrite N.compare_gt_iff in Ec. unfold byte_of in *.
        inversion H as [|? ? ? ? Hl|? ? ? ? Hl]; subst; unfold byte_of in *; lia.
Qed.

Lemma bytes_le_total : forall s t, bytes_le s t \/ bytes_le t s.
Proof.
  induction s as [|c s IH]; intros t; [left; constructor|].
  destruct t as [|d t]; [right; constructor|].
  destruct (Z.lt_trichotomy (byte_of c) (byte_of d)) as [H|[H|H]].
  - left; apply bl_lt; exact H.
  - apply byte_of_inj in H; subst. destruct (IH t); [left|right]; apply bl_eq; assumption.
  - right; apply bl_lt; exact H.
Qed.

Lemma bytes_le_antisym : forall s t, bytes_le s t -> bytes_le t s -> s = t.
Proof.
  intros s t H; induction H as [s|c d s t Hl|c s t H IH]; intros H'.
  - inversion H'; reflexivity.
  - inversion H'; subst; lia.
  - inversion H'; subst; [lia|]. f_equal; auto.
Qed.

Lemma bytes_le_trans : forall s t u, bytes_le s t -> bytes_le t u -> bytes_le s u.
Proof.
  intros s t u H; revert u; induction H as [s|c d s t Hl|c s t H IH]; intros u H'; [constructor| |].
  - inversion H'; subst; [apply bl_lt; lia|apply bl_lt; assumption].
  - inversion H'; subst; [apply bl_lt; assumption|apply bl_eq; auto].
Qed.

Lemma ins_sorted_in : forall s l x, In x (ins_sorted s l) <-> x = s \/ In x l.
Proof.
  intros s l x; induction l as [|t l IH]; simpl; [intuition|].
  destruct (String.leb s t); simpl; [intuition|]. rewrite IH. tauto.
Qed.

Lemma sort_strings_in : forall l x, In x (sort_strings l) <-> In x l.
Proof.
  intros l x; induction l as [|s l IH]; simpl; [tauto|]. rewrite ins_sorted_in, IH. intuition.
Qed.

Lemma sort_strings_head : forall l k r, sort_strings l = k :: r -> forall x, In x l -> bytes_le k x.
Proof.
  induction l as [|s l IH]; simpl; intros k r H x Hx; [contradiction|].
  destruct (sort_strings l) as [|t l'] eqn:El; simpl in H.
  - inversion H; subst. destruct Hx as [->|Hx]; [destruct (bytes_le_total x x); assumption|].
    apply sort_strings_in in Hx. rewrite El in Hx. contradiction.
  - destruct (String.leb s t) eqn:Hle; inversion H; subst.
    + apply bytes_le_leb in Hle. destruct Hx as [->|Hx].
      * destruct (bytes_le_total x x); assumption.
      * eapply bytes_le_trans; [exact Hle|]. eapply IH; [reflexivity|exact Hx].
    + destruct Hx as [->|Hx]; [|eapply IH; [reflexivity|exact Hx]].
      destruct (bytes_le_total k x) as [Hk|Hk]; [exact Hk|].
      apply bytes_le_leb in Hk. congruence.
Qed.

Lemma first_from_map : forall V (m : list (string * V)) v,
  get_first_from_map m = Some v <-> exists k, smallest m k v.
Proof.
  intros V m v. unfold get_first_from_map. destruct (sort_strings (keys m)) as [|k r] eqn:Es.
  - split; [discriminate|]. intros [k [Hk _]].
    assert (Hin : In k (keys m)) by (apply lookup_Some_key; eauto).
    apply sort_strings_in in Hin. rewrite Es in Hin. contradiction.
  - pose proof (sort_strings_head _ _ _ Es) as Hh. split.
    + intros H. exists k. split; [exact H|exact Hh].
    + intros [k' [Hk' Hs]]. assert (k' = k) as ->; [|exact Hk'].
      apply bytes_le_antisym.
      * apply Hs. apply sort_strings_in. rewrite Es. left; reflexivity.
      * apply Hh. apply lookup_Some_key; eauto.
Qed.

Lemma first_from_map_none : forall V (m : list (string * V)), get_first_from_map m = None <-> m = [].
Proof.
  intros V m. unfold get_first_from_map. destruct (sort_strings (keys m)) as [|k r] eqn:Es.
  - split; [intros _|reflexivity]. destruct m as [|[k v] m]; [reflexivity|].
    assert (Hin : In k (sort_strings (keys ((k, v) :: m)))) by (apply sort_strings_in; left; reflexivity).
    rewrite Es in Hin; contradiction.
  - split; [|intros ->; discriminate]. intros H.
    assert (Hin : In k (keys m)) by (apply sort_strings_in; rewrite Es; left; reflexivity).
    apply lookup_Some_key in Hin as [v Hv]. congruence.
Qed.

Lemma smallest_fun : forall V (m : list (string * V)) k k' v v', smallest m k v -> smallest m k' v' -> k = k' /\ v = v'.
Proof.
  intros V m k k' v v' [H1 H2] [H1' H2'].
  assert (k = k') as ->.
  { apply bytes_le_antisym; [apply H2|apply H2']; apply lookup_Some_key; eauto. }
  split; congruence.
Qed.

Lemma first_map_snd : forall A B (g : A -> B) (m : list (string * A)),
  get_first_from_map (map (fun kv => (fst kv, g (snd kv))) m) = option_map g (get_first_from_map m).
Proof.
  intros A B g m. unfold get_first_from_map. rewrite keys_map_snd.
  destruct (sort_strings (keys m)); [reflexivity|]. apply lookup_map_snd.
Qed.

Lemma first_perm : forall V (m m' : list (string * V)), NoDup (keys m) -> Permutation m m' ->
  get_first_from_map m = get_first_from_map m'.
Proof.
  intros V m m' Hnd Hp.
  assert (H : forall v, get_first_from_map m = Some v -> get_first_from_map m' = Some v).
  { intros v Hv. apply first_from_map in Hv as [k [Hk Hs]]. apply first_from_map. exists k. split.
    - rewrite <- (lookup_perm m m' k Hnd Hp). exact Hk.
    - intros k' Hk'. apply Hs. eapply Permutation_in; [apply Permutation_sym, (Permutation_map fst Hp)|exact Hk']. }
  destruct (get_first_from_map m) as [v|] eqn:Em; [symmetry; auto|].
  apply first_from_map_none in Em. subst m. apply Permutation_nil in Hp. subst m'. reflexivity.
Qed.

(* ------------------------------------------------------------- repeated keys *)

Lemma entry_cons : forall A (m : list (string * A)) k' j' k j,
  entry ((k', j') :: m) k j <-> entry m k j \/ (k = k' /\ j = j' /\ ~ In k (keys m)).
Proof.
  intros A m k' j' k j. split.
  - intros (m1 & m2 & Hm & Hn). destruct m1 as [|[a b] m1]; inversion Hm; subst.
    + right. auto.
    + left. exists m1, m2; auto.
  - intros [(m1 & m2 & -> & Hn)|(-> & -> & Hn)].
    + exists ((k', j') :: m1), m2; auto.
    + exists [], m; auto.
Qed.

Lemma entry_key : forall A (m : list (string * A)) k, In k (keys m) <-> exists j, entry m k j.
Proof.
  intros A m k; induction m as [|[k' j'] m IH].
  - split; [contradiction|]. intros [j (m1 & m2 & Hm & _)]. destruct m1; discriminate.
  - split.
    + intros Hin. destruct (in_dec string_dec k (keys m)) as [Hk|Hk].
      * apply IH in Hk as [j Hj]. exists j. apply entry_cons; auto.
      * destruct Hin as [<-|Hin]; [|contradiction]. exists j'. apply entry_cons; auto.
    + intros [j Hj]. apply entry_cons in Hj as [Hj|(-> & _)]; [right; apply IH; eauto|left; reflexivity].
Qed.

Lemma fold_insert_keys : forall A (m acc : list (string * A)) k,
  In k (keys (fold_left (fun acc kv => insert (fst kv) (snd kv) acc) m acc)) <-> In k (keys acc) \/ In k (keys m).
Proof.
  intros A m; induction m as [|[k' v] m IH]; intros acc k; simpl; [tauto|].
  rewrite IH. destruct (in_dec string_dec k' (keys acc)) as [Hi|Hi].
  - rewrite keys_insert_in by exact Hi. split; [intuition|]. intros [H|[H|H]]; subst; auto.
  - rewrite insert_not_in by exact Hi. unfold keys at 1. rewrite map_app, in_app_iff. simpl. unfold keys. intuition.
Qed.

Lemma fold_insert_nodup : forall A (m acc : list (string * A)), NoDup (keys acc) ->
  NoDup (keys (fold_left (fun acc kv => insert (fst kv) (snd kv) acc) m acc)).
Proof.
  intros A m; induction m as [|[k' v] m IH]; intros acc H; simpl; [exact H|].
  apply IH. apply NoDup_keys_insert; exact H.
Qed.

Lemma fold_insert_lookup : forall A (m acc : list (string * A)) k j,
  lookup k (fold_left (fun acc kv => insert (fst kv) (snd kv) acc) m acc) = Some j <->
  entry m k j \/ (~ In k (keys m) /\ lookup k acc = Some j).
Proof.
  intros A m; induction m as [|[k' v] m IH]; intros acc k j; simpl.
  - split; [intuition|]. intros [(m1 & m2 & Hm & _)|[_ H]]; [destruct m1; discriminate|exact H].
  - rewrite IH, lookup_insert, entry_cons. destruct (eq_dec k k') as [->|Hk].
    + split.
      * intros [H|[H1 H2]]; [auto|]. inversion H2; subst. left; right; auto.
      * intros [[H|(_ & -> & H)]|[H _]]; [auto|right; split; auto|]. exfalso; apply H; left; reflexivity.
    + split.
      * intros [H|[H1 H2]]; [auto|]. right; split; [|exact H2]. intros [?|?]; [congruence|contradiction].
      * intros [[H|(? & _)]|[H1 H2]]; [auto|contradiction|]. right; split; [|exact H2]. intros ?; apply H1; right; assumption.
Qed.

Lemma dedup_lookup : forall A (m : list (string * A)) k j, lookup k (dedup m) = Some j <-> entry m k j.
Proof.
  intros A m k j. unfold dedup. rewrite fold_insert_lookup. simpl. intuition discriminate.
Qed.

Lemma dedup_nodup : forall A (m : list (string * A)), NoDup (keys (dedup m)).
Proof. intros. apply fold_insert_nodup. constructor. Qed.

Lemma dedup_keys : forall A (m : list (string * A)) k, In k (keys (dedup m)) <-> In k (keys m).
Proof. intros A m k. unfold dedup. rewrite fold_insert_keys. simpl. tauto. Qed.

Lemma dedup_perm_in : forall A (m m' : list (string * A)) k j, Permutation m' (dedup m) ->
  In (k, j) m' <-> entry m k j.
Proof.
  intros A m m' k j Hp. rewrite <- dedup_lookup. split.
  - intros H. apply In_lookup; [apply dedup_nodup|]. eapply Permutation_in; eauto.
  - intros H. apply lookup_In in H. eapply Permutation_in; [apply Permutation_sym; exact Hp|exact H].
Qed.

Lemma perm_keys_in : forall A (m m' : list (string * A)) k, Permutation m' (dedup m) ->
  In k (keys m') <-> In k (keys m).
Proof.
  intros A m m' k Hp. rewrite <- (dedup_keys _ m). split; intros H.
  - eapply Permutation_in; [apply (Permutation_map fst Hp)|exact H].
  - eapply Permutation_in; [apply Permutation_sym, (Permutation_map fst Hp)|exact H].
Qed.

Lemma perm_keys_nodup : forall A (m m' : list (string * A)), Permutation m' (dedup m) -> NoDup (keys m').
Proof.
  intros A m m' Hp. eapply Permutation_NoDup; [apply Permutation_sym, (Permutation_map fst Hp)|apply dedup_nodup].
Qed.

(* ------------------------------------------------------------ fields of a struct *)

Section Fields.
Variable E : env.

Lemma exported_iff : forall s, is_exported s = true <-> starts_upper s.
Proof.
  intros [|c s]; unfold starts_upper; simpl; split.
  - discriminate.
  - intros [c [r [H _]]]; discriminate.
  - intros H. apply andb_true_iff in H as [H1 H2]. exists c, s. split; [reflexivity|].
    apply Z.leb_le in H1, H2. lia.
  - intros [c' [r [H Hc]]]. inversion H; subst. apply andb_true_iff. split; apply Z.leb_le; lia.
Qed.

Lemma has_suffix_iff : forall s suf, has_suffix s suf = true <-> exists p, s = (p +++ suf).
Proof.
  intros s suf; induction s as [|c s IH]; cbn [has_suffix]; rewrite orb_true_iff.
  - rewrite String.eqb_eq. split.
    + intros [<-|H]; [exists ""; reflexivity|discriminate].
    + intros [[|c p] H]; [left; exact H|discriminate].
  - rewrite String.eqb_eq, IH. split.
    + intros [<-|[p ->]]; [exists ""; reflexivity|exists (String c p); reflexivity].
    + intros [[|c' p] H]; [left; exact H|right; inversion H; exists p; reflexivity].
Qed.

Lemma skipped_iff : forall s, tag_skipped s = true <-> s = "-" \/ exists p, s = (p +++ ",-").
Proof. intros s; unfold tag_skipped. rewrite orb_true_iff, String.eqb_eq, has_suffix_iff. reflexivity. Qed.

Lemma hidden_iff : forall f, hidden f <-> is_exported (fname f) = false \/ tag_skipped (ftag f) = true.
Proof.
  intros f. unfold hidden. rewrite <- exported_iff, <- skipped_iff, <- not_true_iff_false. reflexivity.
Qed.

Lemma hidden_dec : forall f, hidden f \/ ~ hidden f.
Proof.
  intros f. rewrite hidden_iff. destruct (is_exported (fname f)), (tag_skipped (ftag f)); intuition discriminate.
Qed.

Lemma upto_comma_spec : forall s, no_comma (upto_comma s) /\ (s = upto_comma s \/ exists r, s = (upto_comma s +++ "," +++ r)).
Proof.
  intros s; induction s as [|c s [Hn IH]]; simpl; [split; [intros []|left; reflexivity]|].
  destruct (Ascii.eqb c ",") eqn:Eq.
  - apply Ascii.eqb_eq in Eq; subst c. split; [intros []|right; exists s; reflexivity].
  - split; [intros [H|H]; [subst c; discriminate|contradiction]|].
    destruct IH as [IH|[r IH]]; [left; exact (f_equal (String c) IH)|right; exists r; exact (f_equal (String c) IH)].
Qed.

Lemma upto_comma_app : forall n r, no_comma n -> upto_comma n = n /\ upto_comma (n +++ "," +++ r) = n.
Proof.
  intros n r; induction n as [|c n IH]; intros H; [split; reflexivity|]. simpl in *.
  assert (Hn : no_comma n) by (intros Hc; apply H; right; exact Hc). destruct (IH Hn) as [Eq1 Eq2].
  destruct (Ascii.eqb c ",") eqn:Eq; [apply Ascii.eqb_eq in Eq; subst c; exfalso; apply H; left; reflexivity|].
  rewrite Eq1, Eq2. split; reflexivity.
Qed.

Lemma json_name_spec : forall f n, json_name f = n <-> named_in_json f n.
Proof.
  intros f n. unfold json_name. split.
  - intros <-. destruct (upto_comma_spec (ftag f)) as [Hn H].
    destruct (String.eqb (upto_comma (ftag f)) "") eqn:Eq.
    + apply String.eqb_eq in Eq. rewrite Eq in H. apply nj_field. destruct H as [H|[r H]]; [left; exact H|right; exists r; exact H].
    + assert (Hne : upto_comma (ftag f) <> "") by (intros Hc; rewrite Hc in Eq; discriminate).
      destruct H as [H|[r H]]; [apply (nj_tag f _ ""); auto|apply (nj_tag f _ r); auto].
  - intros H; inversion H as [n' rest Hne Hn Ht|Ht]; subst.
    + destruct (upto_comma_app n rest Hn) as [Eq1 Eq2].
      assert (Eq : upto_comma (ftag f) = n) by (destruct Ht as [H1|H1]; rewrite H1; assumption).
      rewrite Eq. destruct (String.eqb n "") eqn:En; [apply String.eqb_eq in En; contradiction|reflexivity].
    + assert (Eq : upto_comma (ftag f) = "") by (destruct Ht as [H1|[r H1]]; rewrite H1; reflexivity). rewrite Eq. reflexivity.
Qed.

Lemma loop_fields_flat : forall fuel om fs prefix nfs, loop_fields E fuel om prefix fs = Some nfs ->
  exists l, flat E fs l /\ nfs = map (fun pf => NF (snd pf) (prefix ++ fst pf) (kind_of E om (snd pf))) l.
Proof.
  induction fuel as [|fuel IHf]; intros om fs; [discriminate|].
  induction fs as [|f fs IHfs]; intros prefix nfs H.
  - simpl in H. inversion H; subst. exists []. split; [constructor|reflexivity].
  - cbn [loop_fields] in H, IHfs.
    destruct (is_exported (fname f)) eqn:Hex; cbn [negb] in H;
      [|apply IHfs in H as (l & Hl & Hn); exists l; split; [apply fl_hidden; [apply hidden_iff; left; exact Hex|exact Hl]|exact Hn]].
    destruct (tag_skipped (ftag f)) eqn:Htg;
      [apply IHfs in H as (l & Hl & Hn); exists l; split; [apply fl_hidden; [apply hidden_iff; right; exact Htg|exact Hl]|exact Hn]|].
    assert (Hh : ~ hidden f) by (rewrite hidden_iff, Hex, Htg; intuition discriminate).
    assert (Hplain : forall r, (forall gs, ~ embedded E f gs) ->
      (exists l, flat E fs l /\ r = map (fun pf => NF (snd pf) (prefix ++ fst pf) (kind_of E om (snd pf))) l) ->
      Some (NF f (prefix ++ [fname f]) (kind_of E om f) :: r) = Some nfs ->
      exists l, flat E (f :: fs) l /\ nfs = map (fun pf => NF (snd pf) (prefix ++ fst pf) (kind_of E om (snd pf))) l).
    { intros r Hne (l & Hl & Hn) Hp. inversion Hp; subst.
      exists (([fname f], f) :: l). split; [apply fl_field; assumption|]. reflexivity. }
    destruct (under E (ftype f)) as [n|t|t|t|k t|gs|ms|b] eqn:Hu;
      try (match type of H with match ?g with _ => _ end = _ => destruct g as [r|] eqn:Hg; [|discriminate] end;
           apply (Hplain r); [intros gs' (_ & _ & _ & Hs); congruence|apply IHfs; exact Hg|exact H]).
    destruct (String.eqb (ftag f) "" && fanon f) eqn:He.
    + apply andb_true_iff in He as [He1 He2]. apply String.eqb_eq in He1.
      destruct (loop_fields E fuel om (prefix ++ [fname f]) gs) as [a|] eqn:Ha; [|discriminate].
      match type of H with match ?g with _ => _ end = _ => destruct g as [r|] eqn:Hg; [|discriminate] end.
      inversion H; subst. apply IHf in Ha as (la & Hla & Hna). apply IHfs in Hg as (lb & Hlb & Hnb).
      exists (map (fun pf => (fname f :: fst pf, snd pf)) la ++ lb). split.
      * eapply fl_embedded; [|exact Hla|exact Hlb]. unfold embedded; auto.
      * rewrite map_app, map_map, Hna, Hnb. f_equal. apply map_ext. intros [p g]; simpl. rewrite <- app_assoc. reflexivity.
    + match type of H with match ?g with _ => _ end = _ => destruct g as [r|] eqn:Hg; [|discriminate] end.
      apply (Hplain r); [|apply IHfs; exact Hg|exact H]. intros gs' (_ & Ht & Han & _). rewrite Ht, Han in He. discriminate.
Qed.

(* Embedded structs by path. *)
Inductive emb : list gfield -> list string -> list gfield -> Prop :=
| emb_nil : forall fs, emb fs [] fs
| emb_cons : forall fs f gs p hs, In f fs -> fanon f = true -> under E (ftype f) = TStruct gs ->
    emb gs p hs -> emb fs (fname f :: p) hs.

Lemma emb_snoc : forall fs p gs f hs, emb fs p gs -> In f gs -> fanon f = true -> under E (ftype f) = TStruct hs ->
  emb fs (p ++ [fname f]) hs.
Proof.
  intros fs p gs f hs H; induction H as [fs|fs g gs p ks Hin Ha Hu H IH]; intros Hf Hfa Hfu.
  - simpl. eapply emb_cons; [exact Hf|exact Hfa|exact Hfu|constructor].
  - simpl. eapply emb_cons; [exact Hin|exact Ha|exact Hu|auto].
Qed.

Lemma emb_unsnoc : forall fs q hs, emb fs q hs -> q <> [] ->
  exists p gs f, q = p ++ [fname f] /\ emb fs p gs /\ In f gs /\ fanon f = true /\ under E (ftype f) = TStruct hs.
Proof.
  intros fs q hs H; induction H as [fs|fs g gs p ks Hin Ha Hu H IH]; intros Hne; [congruence|].
  destruct p as [|x p].
  - inversion H; subst. exists [], fs, g. repeat split; auto. constructor.
  - destruct IH as (p' & gs' & f & Hq & He & Hf & Hfa & Hfu); [discriminate|].
    exists (fname g :: p'), gs', f. rewrite Hq. repeat split; auto. eapply emb_cons; eauto.
Qed.

Lemma is_path_emb : forall fs q u, is_path E fs q u <->
  exists p gs f, q = p ++ [fname f] /\ emb fs p gs /\ In f gs /\ u = ftype f.
Proof.
  intros fs q u. split.
  - intros H; induction H as [fs f Hf|fs f gs p t Hf Ha Hu H IH].
    + exists [], fs, f. repeat split; auto. constructor.
    + destruct IH as (p' & gs' & g & -> & He & Hg & ->). exists (fname f :: p'), gs', g.
      repeat split; auto. eapply emb_cons; eauto.
  - intros (p & gs & f & -> & He & Hf & ->). induction He as [fs|fs g gs p ks Hin Ha Hu H IH].
    + apply ip_here; exact Hf.
    + simpl. eapply ip_in; [exact Hin|exact Ha|exact Hu|auto].
Qed.

Definition at_depth (fs : list gfield) (d : nat) (lv : list (list string * list gfield)) : Prop :=
  forall p gs, In (p, gs) lv <-> emb fs p gs /\ length p = d.

Lemma next_depth : forall fs d lv, at_depth fs d lv -> at_depth fs (S d) (next_level E lv).
Proof.
  intros fs d lv H p hs. unfold next_level. rewrite in_flat_map. split.
  - intros ([q gs] & Hq & Hin). apply in_flat_map in Hin as (f & Hf & Hin). simpl in Hf, Hin.
    destruct (under E (ftype f)) eqn:Hu; try contradiction.
    destruct (fanon f) eqn:Ha; [|contradiction]. destruct Hin as [Hin|[]]. inversion Hin; subst.
    apply H in Hq as [Hq Hl]. split; [eapply emb_snoc; eauto|]. rewrite app_length, Hl. simpl. lia.
  - intros [He Hl]. apply emb_unsnoc in He as (q & gs & f & -> & He & Hf & Ha & Hu); [|intros ->; discriminate].
    rewrite app_length in Hl. simpl in Hl. exists (q, gs). split; [apply H; split; [exact He|lia]|].
    apply in_flat_map. exists f. split; [exact Hf|]. rewrite Hu, Ha. left; reflexivity.
Qed.

Lemma level_matches_in : forall fs d lv name p t, at_depth fs d lv ->
  In (p, t) (level_matches name lv) <-> is_path E fs p t /\ last p "" = name /\ length p = S d.
Proof.
  intros fs d lv name p t H. unfold level_matches. rewrite in_flat_map. split.
  - intros ([q gs] & Hq & Hin). apply in_flat_map in Hin as (f & Hf & Hin). simpl in Hf, Hin.
    destruct (String.eqb (fname f) name) eqn:En; [|contradiction]. apply String.eqb_eq in En.
    destruct Hin as [Hin|[]]. inversion Hin; subst. apply H in Hq as [Hq Hl].
    split; [apply is_path_emb; exists q, gs, f; auto|].
    rewrite last_last, app_length, Hl. simpl. split; [reflexivity|lia].
  - intros (Hp & Hn & Hl). apply is_path_emb in Hp as (q & gs & f & -> & He & Hf & ->).
    rewrite last_last in Hn. rewrite app_length in Hl. simpl in Hl.
    exists (q, gs). split; [apply H; split; [exact He|lia]|]. apply in_flat_map. exists f. split; [exact Hf|].
    rewrite Hn, String.eqb_refl. left; reflexivity.
Qed.

Lemma field_by_name_sound : forall fuel fs d lv name p t, at_depth fs d lv ->
  (forall q u, is_path E fs q u -> last q "" = name -> S d <= length q) ->
  field_by_name E fuel name lv = Some (p, t) -> selects E fs name p t.
Proof.
  induction fuel as [|fuel IH]; intros fs d lv name p t Hd Hmin H; [discriminate|].
  cbn [field_by_name] in H. destruct (level_matches name lv) as [|x [|y r]] eqn:Em.
  - assert (Hmin' : forall q u, is_path E fs q u -> last q "" = name -> S (S d) <= length q).
    { intros q u Hq Hn. pose proof (Hmin q u Hq Hn) as Hle.
      destruct (Nat.eq_dec (length q) (S d)) as [He|He]; [|lia].
      assert (Hin : In (q, u) (level_matches name lv)) by (eapply level_matches_in; eauto).
      rewrite Em in Hin; contradiction. }
    destruct (next_level E lv) eqn:En; [discriminate|]. rewrite <- En in H.
    eapply IH; [apply next_depth; exact Hd|exact Hmin'|exact H].
  - inversion H; subst. clear H.
    assert (Hin : In (p, t) (level_matches name lv)) by (rewrite Em; left; reflexivity).
    eapply level_matches_in in Hin as (Hp & Hn & Hl); [|exact Hd].
    split; [exact Hp|]. split; [exact Hn|]. intros q u Hq Hqn. split.
    + rewrite Hl. eapply Hmin; eauto.
    + intros Hlen. assert (Hin : In (q, u) (level_matches name lv)).
      { eapply level_matches_in; [exact Hd|]. split; [exact Hq|]. split; [exact Hqn|congruence]. }
      rewrite Em in Hin. destruct Hin as [Hin|[]]. inversion Hin; auto.
  - discriminate.
Qed.

Lemma at_depth_0 : forall fs, at_depth fs 0 [([], fs)].
Proof.
  intros fs p gs. split.
  - intros [H|[]]. inversion H; subst. split; [constructor|reflexivity].
  - intros [H Hl]. destruct p; [|discriminate]. inversion H; subst. left; reflexivity.
Qed.

Lemma path_nonempty : forall fs q u, is_path E fs q u -> 1 <= length q.
Proof. intros fs q u H; destruct H; simpl; lia. Qed.

Lemma field_by_name_selects : forall fuel fs name p t,
  field_by_name E fuel name [([], fs)] = Some (p, t) -> selects E fs name p t.
Proof.
  intros fuel fs name p t H. eapply field_by_name_sound; [apply at_depth_0| |exact H].
  intros q u Hq _. eapply path_nonempty; eauto.
Qed.

Lemma selects_fun : forall fs name p t q u, selects E fs name p t -> selects E fs name q u -> p = q /\ t = u.
Proof.
  intros fs name p t q u (Hp & Hn & Hm) (Hq & Hn' & Hm').
  destruct (Hm q u Hq Hn') as [H1 H2]. destruct (Hm' p t Hp Hn) as [H3 H4].
  assert (length q = length p) by lia. destruct (H2 H) as [-> ->]. auto.
Qed.

Lemma selects_name : forall fs n n' p t u, selects E fs n p t -> selects E fs n' p u -> n = n'.
Proof. intros fs n n' p t u (_ & H & _) (_ & H' & _). congruence. Qed.

Lemma is_path_incl : forall fs fs' p t, is_path E fs p t -> incl fs fs' -> is_path E fs' p t.
Proof.
  intros fs fs' p t H Hi. inversion H as [? f Hf|? f gs q u Hf Ha Hu Hq]; subst.
  - apply ip_here; auto.
  - eapply ip_in; [apply Hi; exact Hf|exact Ha|exact Hu|exact Hq].
Qed.

Lemma flat_path : forall fs l, flat E fs l -> forall p f, In (p, f) l -> is_path E fs p (ftype f) /\ last p "" = fname f.
Proof.
  intros fs l H; induction H as [|f fs l Hh H IH|f gs fs l1 l2 He H1 IH1 H2 IH2|f fs l Hh Hne H IH]; intros p g Hin.
  - contradiction.
  - destruct (IH _ _ Hin) as [Hp Hl]. split; [|exact Hl]. eapply is_path_incl; [exact Hp|apply incl_tl, incl_refl].
  - apply in_app_or in Hin as [Hin|Hin].
    + apply in_map_iff in Hin as ([p' g'] & Heq & Hin). simpl in Heq. inversion Heq; subst.
      destruct (IH1 _ _ Hin) as [Hp Hl]. destruct He as (_ & _ & Ha & Hu). split.
      * eapply ip_in; [left; reflexivity|exact Ha|exact Hu|exact Hp].
      * destruct p'; [inversion Hp|exact Hl].
    + destruct (IH2 _ _ Hin) as [Hp Hl]. split; [|exact Hl]. eapply is_path_incl; [exact Hp|apply incl_tl, incl_refl].
  - destruct Hin as [Hin|Hin].
    + inversion Hin; subst. split; [apply ip_here; left; reflexivity|reflexivity].
    + destruct (IH _ _ Hin) as [Hp Hl]. split; [|exact Hl]. eapply is_path_incl; [exact Hp|apply incl_tl, incl_refl].
Qed.

End Fields.
