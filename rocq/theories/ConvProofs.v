(* Proofs about the format conversions. *)

From Verif Require Import Base CtyModel CtySpec CtyProofs CtyProofs2 HclModel HclSpec HclRound JsonModel JsonSpec
  JsonProofs ConvModel.
From Coq Require Import Lia Permutation.
Local Open Scope nat_scope.

Fixpoint resort (v : native) : native :=
  match v with
  | NMap m => NMap (sort_keys (map (fun kv => (fst kv, resort (snd kv))) m))
  | NList l => NList (map resort l)
  | _ => v
  end.
Lemma resort_map : forall m, resort (NMap m) = NMap (on_snd resort (sort_keys m)).
Proof. intros m. cbn [resort]. fold (on_snd resort m). rewrite sort_on. reflexivity. Qed.
Lemma view_map : forall m, view (NMap m) = NMap (on_snd view (sort_keys m)).
Proof. intros m. cbn [view]. fold (on_snd view m). rewrite sort_on. reflexivity. Qed.

(* ----- JSON data are marshalled like the data they came from ----- *)

Definition alike (a b : native) : Prop :=
  is_map a = is_map b /\ (a = NNil <-> b = NNil) /\ scalar_text a = scalar_text b
  /\ (forall level kn, marshal_level a level kn = marshal_level b level kn)
  /\ (forall level name depth kn, loop_hash level name depth kn a = loop_hash level name depth kn b).

Lemma int_text : forall z, (Z.abs z <= 2 ^ 53)%Z -> scalar_text (NF64 (mkD z 0)) = Some (Ok (dec_Z z)).
Proof.
  intros z H. cbn [scalar_text]. assert (W : is_whole (mkD z 0) z) by (unfold is_whole; cbn; lia).
  destruct (number_int (mkD z 0) z W (small_int64 z H)) as (v & E & V). rewrite E.
  destruct V as [[-> _]|[-> _]]; reflexivity.
Qed.

Lemma alike_scalar : forall a b t, is_map a = false -> is_map b = false -> go_zero a = go_zero b ->
  scalar_text a = Some (Ok t) -> scalar_text b = Some (Ok t) -> alike a b.
Proof.
  intros a b t Ma Mb G Ta Tb.
  assert (M : forall v level kn, scalar_text v = Some (Ok t) -> marshal_level v level kn = if go_zero v then Ok None else Ok (Some t)).
  { intros v level kn T. destruct v; try discriminate T; cbn [marshal_level]; rewrite T; reflexivity. }
  assert (L : forall v level name depth kn, is_map v = false -> scalar_text v = Some (Ok t) -> loop_hash level name depth kn v = Ok [name +++ " = " +++ t]).
  { intros v level name depth kn X T. destruct v; try discriminate X; try discriminate T;
      cbn [loop_hash]; unfold hash_kind, is_hash_all; rewrite Bool.andb_false_r; rewrite T; reflexivity. }
  split; [congruence|]. split; [split; intros ->; discriminate|]. split; [congruence|]. split.
  - intros level kn. rewrite (M a), (M b), G by assumption. reflexivity.
  - intros level name depth kn. rewrite (L a), (L b) by assumption. reflexivity.
Qed.
Lemma alike_refl : forall a, alike a a.
Proof. intros a. unfold alike. tauto. Qed.

Lemma entry_alike : forall level kn k a b, alike a b -> entry level kn k a = entry level kn k b.
Proof.
  intros level kn k a b (M & N & T & Mr & L).
  destruct (nil_dec a) as [->|Na]; [assert (b = NNil) by tauto; subst; reflexivity|].
  assert (Nb : b <> NNil) by tauto. rewrite !entry_eq by assumption. unfold direct_text. rewrite T, L, Mr. reflexivity.
Qed.

Lemma hash_alike : forall d (f g : native -> native) m, (forall k v, In (k, v) m -> alike (f v) (g v)) ->
  hash_kind d (NMap (on_snd f m)) = hash_kind d (NMap (on_snd g m)).
Proof.
  intros d f g m H. unfold hash_kind.
  assert (E : is_hash_all (NMap (on_snd f m)) = is_hash_all (NMap (on_snd g m))); [|rewrite E; reflexivity].
  assert (Q : forallb (fun kv => is_map (snd kv)) (on_snd f m) = forallb (fun kv => is_map (snd kv)) (on_snd g m)).
  { induction m as [|[k v] m IH]; [reflexivity|]. unfold on_snd in *. cbn [map forallb snd].
    rewrite IH by (intros k' v' I; apply (H k' v'); right; exact I). destruct (H k v (or_introl eq_refl)) as (-> & _). reflexivity. }
  destruct m as [|kv m]; [reflexivity|]. unfold is_hash_all. cbn [on_snd map]. unfold on_snd in Q. cbn [map] in Q. rewrite Q. reflexivity.
Qed.

Lemma map_kind : forall d m, hash_kind d (NMap m) = 1 \/ hash_kind d (NMap m) = 2.
Proof.
  intros d m. unfold hash_kind, is_hash_all. destruct m; [|destruct (forallb _ _)]; destruct (Nat.leb 2 d); cbn; tauto.
Qed.

Lemma alike_map : forall (f g : native -> native) m, (forall k v, In (k, v) m -> alike (f v) (g v)) ->
  alike (NMap (on_snd f m)) (NMap (on_snd g m)).
Proof.
  intros f g m H.
  assert (En : forall level kn, entries level kn (on_snd f m) = entries level kn (on_snd g m)).
  { intros level kn. induction m as [|[k v] m IH]; [reflexivity|]. unfold on_snd in *. cbn [map entries fst snd].
    rewrite IH by (intros k' v' I; apply (H k' v'); right; exact I).
    rewrite (entry_alike level kn k (f v) (g v)) by (apply (H k v); left; reflexivity). reflexivity. }
  assert (Mr : forall level kn, marshal_level (NMap (on_snd f m)) level kn = marshal_level (NMap (on_snd g m)) level kn).
  { intros level kn. rewrite !marshal_map, En. reflexivity. }
  split; [reflexivity|]. split; [split; discriminate|]. split; [reflexivity|]. split; [exact Mr|].
  intros level name depth kn. assert (K := hash_alike depth f g m H).
  destruct (map_kind depth (on_snd f m)) as [E|E].
  - rewrite !loop_hash_1 by congruence. rewrite Mr. reflexivity.
  - rewrite !loop_hash_2 by congruence. clear En Mr K E. induction m as [|[k v] m IH]; [reflexivity|]. unfold on_snd in *. cbn [map each_hash fst snd].
    destruct (H k v (or_introl eq_refl)) as (_ & _ & _ & _ & L). rewrite L.
    rewrite IH by (intros k' v' I; apply (H k' v'); right; exact I). reflexivity.
Qed.

Lemma alike_list : forall (f g : native -> native) l, (forall v, In v l -> alike (f v) (g v)) -> alike (NList (map f l)) (NList (map g l)).
Proof.
  intros f g l H.
  assert (Mr : forall level kn, marshal_level (NList (map f l)) level kn = marshal_level (NList (map g l)) level kn).
  { intros level kn. rewrite !marshal_list.
    assert (E : elems level (map f l) = elems level (map g l)); [|rewrite E; reflexivity].
    induction l as [|v l IH]; [reflexivity|]. cbn [map elems]. destruct (H v (or_introl eq_refl)) as (_ & _ & _ & M & _).
    rewrite M, IH by (intros w I; apply H; right; exact I). reflexivity. }
  split; [reflexivity|]. split; [split; discriminate|]. split; [reflexivity|]. split; [exact Mr|].
  intros level name depth kn. cbn [loop_hash]. unfold hash_kind, is_hash_all. rewrite !Bool.andb_false_r. cbn [scalar_text]. rewrite Mr. reflexivity.
Qed.

Theorem view_alike : forall v, exact v -> alike (view v) (resort v).
Proof.
  induction v as [|s|b|z|z|d| |d| |m IH| |l IH] using native_ind'; intros X; inversion X; subst; try (apply alike_refl).
  - cbn [view resort]. rewrite float_small by assumption. apply alike_scalar with (dec_Z z); try reflexivity. apply int_text. assumption.
  - cbn [view resort]. rewrite float_small by assumption. apply alike_scalar with (dec_Z z); try reflexivity. apply int_text. assumption.
  - rewrite view_map, resort_map. apply alike_map. intros k v I. apply (proj1 (sort_In _ _ _)) in I. apply (IH k v I). apply (H1 k v I).
  - cbn [view resort]. apply alike_list. intros v I. apply (IH v I). apply (H0 v I) || apply (H1 v I).
Qed.

(* ----- sorting keeps the data supported and the same ----- *)

Definition not_map_resort : forall v, not_map v -> not_map (resort v).
Proof. intros v H. destruct v; try exact H; intros m'; [destruct (H m) as [X _]; congruence|split; discriminate]. Qed.

Lemma in_sorted : forall A B (f : A -> B) (m : list (string * A)) k w, In (k, w) (on_snd f (sort_keys m)) ->
  exists v, w = f v /\ In (k, v) m.
Proof.
  intros A B f m k w I. unfold on_snd in I. apply in_map_iff in I. destruct I as ([k' v] & E & I). cbn in E. injection E as -> <-.
  exists v. split; [reflexivity|]. apply (proj1 (sort_In _ _ _)) in I. exact I.
Qed.
Lemma sorted_in : forall A B (f : A -> B) (m : list (string * A)) k v, In (k, v) m -> In (k, f v) (on_snd f (sort_keys m)).
Proof.
  intros A B f m k v I. unfold on_snd. apply in_map_iff. exists (k, v). split; [reflexivity|]. apply sort_In. exact I.
Qed.
Lemma sorted_nodup : forall A B (f : A -> B) (m : list (string * A)), NoDup (keys m) -> NoDup (keys (on_snd f (sort_keys m))).
Proof. intros A B f m N. rewrite keys_on. apply sort_nodup. exact N. Qed.
Lemma sorted_nil : forall A B (f : A -> B) (m : list (string * A)), m = [] <-> on_snd f (sort_keys m) = [].
Proof.
  intros A B f m. split; [intros ->; reflexivity|]. destruct m as [|[k v] m]; [reflexivity|]. intros E.
  assert (I := sorted_in A B f ((k, v) :: m) k v (or_introl eq_refl)). rewrite E in I. destruct I.
Qed.

Lemma nsize_elem : forall l v, In v l -> nsize v < nsize (NList l).
Proof.
  intros l v H. cbn [nsize]. induction l as [|v0 l IH]; [destruct H|]. cbn [map list_sum fold_right].
  destruct H as [->|H]; [unfold list_sum; lia|]. specialize (IH H). unfold list_sum in *. lia.
Qed.

Lemma supported_resort : forall n v, nsize v < n ->
  (forall p, supported p v -> supported p (resort v))
  /\ (forall m, v = NMap m -> body_map m -> body_map (on_snd resort (sort_keys m))).
Proof.
  induction n as [|n IH]; intros v L; [lia|].
  assert (B : forall m, v = NMap m -> body_map m -> body_map (on_snd resort (sort_keys m))).
  { intros m -> H. inversion H as [m' N Hm]; subst. constructor; [apply sorted_nodup; exact N|].
    intros k w I. apply in_sorted in I. destruct I as (x & -> & I). destruct (Hm k x I) as [K S]. split; [exact K|].
    apply IH; [|exact S]. assert (Z := nsize_in _ _ _ I). lia. }
  split; [|exact B]. intros p S. inversion S as [p' v' Sc Nz|p' Np|p' l Hl| |m N Hm|m N Hm|m Hb Hx|m Ne N Hm|m Ne N Hm]; subst.
  - destruct v; try exact S; inversion Sc.
  - exact S.
  - cbn [resort]. apply su_list. intros w I. apply in_map_iff in I. destruct I as (x & <- & I). apply IH; [|exact (Hl x I)].
    assert (Z := nsize_elem _ _ I). lia.
  - exact S.
  - rewrite resort_map. apply su_elem; [apply sorted_nodup; exact N|]. intros k w I. apply in_sorted in I. destruct I as (x & -> & I).
    destruct (Hm k x I) as [K Sx]. split; [exact K|]. apply IH; [|exact Sx]. assert (Z := nsize_in _ _ _ I). lia.
  - rewrite resort_map. apply su_obj; [apply sorted_nodup; exact N|]. intros k w I. apply in_sorted in I. destruct I as (x & -> & I).
    destruct (Hm k x I) as [K Sx]. split; [exact K|]. apply IH; [|exact Sx]. assert (Z := nsize_in _ _ _ I). lia.
  - rewrite resort_map. apply su_block; [apply B; [reflexivity|exact Hb]|]. destruct Hx as [->|(k & x & I & Nm)]; [left; reflexivity|].
    right. exists k, (resort x). split; [apply sorted_in; exact I|apply not_map_resort; exact Nm].
  - rewrite resort_map. apply su_block1; [rewrite <- sorted_nil; exact Ne|apply sorted_nodup; exact N|].
    intros k w I. apply in_sorted in I. destruct I as (x & -> & I). destruct (Hm k x I) as [Q (m' & -> & Hb & Hx)].
    split; [exact Q|]. rewrite resort_map. eexists. split; [reflexivity|]. assert (Z := nsize_in _ _ _ I). split.
    + apply (IH (NMap m')); [lia|reflexivity|exact Hb].
    + destruct Hx as [->|(k' & x' & I' & Nm)]; [left; reflexivity|]. right. exists k', (resort x').
      split; [apply sorted_in; exact I'|apply not_map_resort; exact Nm].
  - rewrite resort_map. apply su_block2; [rewrite <- sorted_nil; exact Ne|apply sorted_nodup; exact N|].
    intros k w I. apply in_sorted in I. destruct I as (x & -> & I). destruct (Hm k x I) as [Q (m' & -> & Ne' & N' & Hx)].
    split; [exact Q|]. rewrite resort_map. eexists. split; [reflexivity|]. split; [rewrite <- sorted_nil; exact Ne'|].
    split; [apply sorted_nodup; exact N'|]. intros k' w' I'. apply in_sorted in I'. destruct I' as (x' & -> & I').
    destruct (Hx k' x' I') as [Q' (m'' & -> & Hb)]. split; [exact Q'|]. rewrite resort_map. eexists. split; [reflexivity|].
    assert (Z := nsize_in _ _ _ I). assert (Z' := nsize_in _ _ _ I'). apply (IH (NMap m'')); [lia|reflexivity|exact Hb].
Qed.

(* Data whose scalars are those that HCL can hold. *)
Inductive clean : native -> Prop :=
| cl_scalar v : scalar v -> clean v
| cl_null : clean NNil
| cl_nillist : clean NNilList
| cl_list l : (forall v, In v l -> clean v) -> clean (NList l)
| cl_map m : NoDup (keys m) -> (forall k v, In (k, v) m -> clean v) -> clean (NMap m).

Lemma supported_clean : forall n v, nsize v < n ->
  (forall p, supported p v -> clean v) /\ (forall m, v = NMap m -> body_map m -> clean v).
Proof.
  induction n as [|n IH]; intros v L; [lia|].
  assert (B : forall m, v = NMap m -> body_map m -> clean v).
  { intros m -> H. inversion H as [m' N Hm]; subst. apply cl_map; [exact N|]. intros k x I. destruct (Hm k x I) as [_ S].
    assert (Z := nsize_in _ _ _ I). destruct (IH x) as [C _]; [lia|]. exact (C _ S). }
  split; [|exact B]. intros p S. inversion S as [p' v' Sc Nz|p' Np|p' l Hl| |m N Hm|m N Hm|m Hb Hx|m Ne N Hm|m Ne N Hm]; subst.
  - apply cl_scalar. exact Sc.
  - apply cl_null.
  - apply cl_list. intros x I. destruct (IH x) as [C _]; [|exact (C _ (Hl x I))].
    assert (Z := nsize_elem _ _ I). lia.
  - apply cl_nillist.
  - apply cl_map; [exact N|]. intros k x I. destruct (Hm k x I) as [_ Sx]. assert (Z := nsize_in _ _ _ I). destruct (IH x) as [C _]; [lia|]. exact (C _ Sx).
  - apply cl_map; [exact N|]. intros k x I. destruct (Hm k x I) as [_ Sx]. assert (Z := nsize_in _ _ _ I). destruct (IH x) as [C _]; [lia|]. exact (C _ Sx).
  - apply (B m eq_refl Hb).
  - apply cl_map; [exact N|]. intros k x I. destruct (Hm k x I) as [Q (m' & -> & Hb & Hx)]. assert (Z := nsize_in _ _ _ I).
    destruct (IH (NMap m')) as [_ C]; [lia|]. exact (C m' eq_refl Hb).
  - apply cl_map; [exact N|]. intros k x I. destruct (Hm k x I) as [Q (m' & -> & Ne' & N' & Hx)]. assert (Z := nsize_in _ _ _ I).
    apply cl_map; [exact N'|]. intros k' x' I'. destruct (Hx k' x' I') as [Q' (m'' & -> & Hb)]. assert (Z' := nsize_in _ _ _ I').
    destruct (IH (NMap m'')) as [_ C]; [lia|]. exact (C m'' eq_refl Hb).
Qed.

Lemma same_resort : forall v, exact v -> clean v -> same v (resort v).
Proof.
  induction v as [|s|b|z|z|d| |d| |m IH| |l IH] using native_ind'; intros X C; inversion X; subst;
    try (inversion C; subst; apply same_scalar; assumption).
  - apply same_nil.
  - inversion C as [v' Sc| | | |m' N Hm]; subst; [inversion Sc|]. rewrite resort_map.
    assert (N' : NoDup (keys (on_snd resort m))) by (rewrite keys_on; exact N).
    rewrite <- sort_on. apply same_map; [exact N|apply sort_nodup; exact N'| |].
    + intros k. rewrite lookup_sort, lookup_on by exact N'. destruct (lookup k m); cbn; split; intros E; try discriminate E; reflexivity.
    + intros k v w E E'. rewrite lookup_sort, lookup_on, E in E' by exact N'. injection E' as <-. apply lookup_In in E.
      apply (IH k v E); [apply (H1 k v E)|exact (Hm k v E)].
  - inversion C as [v' Sc| | |l' Hl|]; subst; [inversion Sc|]. cbn [resort]. apply same_list; [assumption|].
    clear X C H0. induction l as [|v l IHl]; [constructor|]. cbn [map]. constructor.
    + apply IH; [left; reflexivity|apply H1; left; reflexivity|apply Hl; left; reflexivity].
    + apply IHl; [intros x I; apply IH; right; exact I|intros x I; apply H1; right; exact I|intros x I; apply Hl; right; exact I].
Qed.

Lemma same_trans : forall a b c, exact a -> same a b -> same b c -> same a c.
Proof.
  induction a as [|s|b|z|z|d| |d| |m IH| |l IH] using native_ind'; intros b0 c X S1 S2; inversion X; subst;
    try (inversion S1; subst; exact S2).
  - inversion S1 as [v Sc| | | | | | |m1 m' N N' K V]; subst; [inversion Sc|].
    inversion S2 as [v Sc| | | | | | |m2 m'' _ N'' K' V']; subst; [inversion Sc|].
    apply same_map; [exact N|exact N''| |].
    + intros k. rewrite K. apply K'.
    + intros k v w E E'. destruct (lookup k m') as [u|] eqn:Eu; [|apply K in Eu; congruence].
      apply (IH k v) with u; [apply lookup_In; exact E|apply (H1 k v), lookup_In, E|exact (V k v u E Eu)|exact (V' k u w Eu E')].
  - inversion S1 as [v Sc| | | | | |l1 l' Ne F|]; subst; [inversion Sc|congruence|].
    inversion S2 as [v Sc| | | | | |l2 l'' Ne' F'|]; subst; [inversion Sc|inversion F; subst; congruence|].
    apply same_list; [exact Ne|]. clear -IH H1 F F'. revert l'' F'. induction F as [|x y l l' S F IHF]; intros l'' F'; inversion F'; subst; constructor.
    + apply (IH x) with y; [left; reflexivity|apply H1; left; reflexivity|exact S|assumption].
    + apply IHF; [intros z I; apply IH; right; exact I|intros z I; apply H1; right; exact I|assumption].
Qed.

Lemma exact_writable : forall v, exact v -> writable v.
Proof.
  induction v as [|s|b|z|z|d| |d| |m IH| |l IH] using native_ind'; intros X; inversion X; subst;
    try (constructor; try assumption; apply small_int64; assumption).
  - apply wr_map; [assumption|]. intros k v I. split; [apply (H1 k v I)|apply (IH k v I), (H1 k v I)].
  - apply wr_list. intros v I. apply (IH v I), H1, I.
Qed.

(* ----- HCL to JSON to HCL ----- *)

Theorem through_json : forall raw m, hcl_unmarshal raw = Ok (NMap m) -> m <> [] -> body_map m -> exact (NMap m) ->
  exists j t v, hcl_to_json raw = Ok j /\ json_to_hcl j = Ok t /\ hcl_unmarshal t = Ok v /\ same (NMap m) v.
Proof.
  intros raw m E Ne B X. destruct (json_round_trip m (exact_writable _ X)) as (j & Ej & Uj).
  set (m2 := on_snd resort (sort_keys m)).
  assert (B2 : body_map m2).
  { apply (supported_resort (S (nsize (NMap m))) (NMap m)); [lia|reflexivity|exact B]. }
  assert (Ne2 : m2 <> []) by (unfold m2; rewrite <- sorted_nil; exact Ne).
  destruct (doc_round_trip m2 Ne2 B2) as (t & v & Et & Ev & Sm).
  assert (Al := view_alike _ X). destruct Al as (_ & _ & _ & Mr & _). rewrite view_map, resort_map in Mr. fold m2 in Mr.
  exists j, t, v. split; [unfold hcl_to_json; rewrite E; exact Ej|]. split; [|split].
  - unfold json_to_hcl. rewrite Uj. cbn [bindr]. unfold hcl_marshal. rewrite view_map. unfold marshal in *. rewrite Mr, Et. reflexivity.
  - exact Ev.
  - apply same_trans with (NMap m2); [exact X| |exact Sm].
    assert (R := same_resort (NMap m) X). rewrite resort_map in R. apply R.
    destruct (supported_clean (S (nsize (NMap m))) (NMap m)) as [_ C]; [lia|]. exact (C m eq_refl B).
Qed.

(* ----- JSON to YAML to JSON ----- *)

Lemma whole_unique : forall d a b, is_whole d a -> is_whole d b -> a = b.
Proof. intros d a b H1 H2. destruct (whole_div d a H1) as [_ A]. destruct (whole_div d b H2) as [_ B]. congruence. Qed.
Lemma whole_same : forall d d' z, is_whole d z -> same_num d d' -> is_whole d' z.
Proof.
  intros d d' z H S. unfold is_whole, same_num in *. fold (pow2 (den d)) in H. fold (pow2 (den d')).
  rewrite H in S. assert (P := pow2_pos (den d)). nia.
Qed.
Lemma whole_num : forall d z, is_whole d z -> same_num d (mkD z 0).
Proof. intros d z H. unfold is_whole in H. unfold same_num, pow2. cbn. lia. Qed.

Lemma yaml_json : forall v w, writable v -> yaml_view v w -> writable w /\ json_view v (view w).
Proof.
  induction v as [|s|b|z|z|d| |d| |m IH| |l IH] using native_ind'; intros w W Y; inversion Y; subst;
    try (split; [exact W|constructor]).
  - inversion W; subst. assert (z0 = z) by (eapply whole_unique; eassumption). subst z0. split.
    + apply wr_int. apply small_int64. assumption.
    + cbn [view]. rewrite float_small by assumption. apply jv_f64. apply whole_num. assumption.
  - inversion W; subst. assert (Wd : is_whole d' z) by (eapply whole_same; eassumption). split.
    + apply wr_f64 with z; assumption.
    + cbn [view]. destruct (whole_div d' z Wd) as [_ ->]. rewrite float_small by assumption. apply jv_f64. apply whole_num. assumption.
  - inversion W as [| | | | | | | | |m0 N Hm|]; subst.
    assert (Q : forall k x, In (k, x) m' -> ascii_string k /\ exists y, lookup k m = Some y /\ writable x /\ json_view y (view x)).
    { intros k x I. apply (In_lookup _ _ _ H1) in I. destruct (lookup k m) as [y|] eqn:E; [|apply H2 in E; congruence].
      assert (Iy := lookup_In _ _ _ E). destruct (Hm k y Iy) as [A Wy]. split; [exact A|]. exists y. split; [reflexivity|].
      apply (IH k y Iy x Wy). exact (H3 k y x E I). }
    split.
    + apply wr_map; [assumption|]. intros k x I. destruct (Q k x I) as (A & y & _ & Wx & _). split; assumption.
    + rewrite view_map, <- sort_on. assert (N' : NoDup (keys (on_snd view m'))) by (rewrite keys_on; assumption).
      apply jv_map; [assumption|apply sort_nodup; exact N'| |].
      * intros k. rewrite lookup_sort, lookup_on by exact N'. rewrite H2. destruct (lookup k m'); cbn; split; intros E; try discriminate E; reflexivity.
      * intros k y x' E E'. rewrite lookup_sort, lookup_on in E' by exact N'. destruct (lookup k m') as [x|] eqn:Ex; [|discriminate].
        injection E' as <-. destruct (Q k x (lookup_In _ _ _ Ex)) as (_ & y' & Ey & _ & J). congruence.
  - inversion W as [| | | | | | | | | |l0 Hl]; subst. cbn [view].
    assert (Q : (forall x, In x l' -> writable x) /\ Forall2 json_view l (map view l')).
    { clear W Y. induction H0 as [|x y l l' S F IHF]; [split; [intros x []|constructor]|].
      destruct (IH x (or_introl eq_refl) y (Hl x (or_introl eq_refl)) S) as [Wy J].
      destruct IHF as [A B]; [intros z I; apply IH; right; exact I|intros z I; apply Hl; right; exact I|].
      split; [intros z [<-|I]; [exact Wy|exact (A z I)]|constructor; assumption]. }
    split; [apply wr_list|apply jv_list]; apply Q.
Qed.

(* ----- flags ----- *)

Lemma cut_eq_none : forall s, snd (cut_eq s) = None -> fst (cut_eq s) = s.
Proof.
  induction s as [|c s IH]; [reflexivity|]. cbn [cut_eq]. destruct (Ascii.eqb c "="); [discriminate|]. cbn. intros H. rewrite IH by exact H. reflexivity.
Qed.
Lemma cut_eq_some : forall s v, snd (cut_eq s) = Some v -> s = fst (cut_eq s) +++ "=" +++ v.
Proof.
  induction s as [|c s IH]; intros v; [discriminate|]. cbn [cut_eq]. destruct (Ascii.eqb c "=") eqn:E.
  - intros [= <-]. apply Ascii.eqb_eq in E. subst. reflexivity.
  - cbn. intros H. rewrite (IH v H) at 1. reflexivity.
Qed.

Lemma put_set : forall n v f t, a_flag n -> set_flag n v f t = put n v f t.
Proof. intros n v f t [->| ->]; reflexivity. Qed.
Lemma known_spec : forall n, known_flag n = true <-> a_flag n.
Proof. intros n. unfold known_flag, a_flag. rewrite orb_true_iff, !String.eqb_eq. tauto. Qed.

Section Flags.
Variable prog defaults : string.
Notation parse := (parse_flags prog defaults).

(* An argument that is not the end of the flags. *)
Definition flag_arg (s name : string) : Prop := exists dash, (dash = "-" \/ dash = "--") /\ s = dash +++ name
  /\ match name with "" => False | String d _ => d <> "-"%char end.

Lemma parse_flag : forall s name rest f t, flag_arg s name ->
  parse (s :: rest) f t =
  match name with
  | "" => Args f t (s :: rest)
  | String d _ =>
    if Ascii.eqb d "-" || Ascii.eqb d "=" then bad_flag prog defaults ("bad flag syntax: " +++ s)
    else
      let p := cut_eq name in
      if negb (known_flag (fst p)) then
        if String.eqb (fst p) "help" || String.eqb (fst p) "h" then Leave (mkOut 0 "" (flag_usage prog defaults))
        else bad_flag prog defaults ("flag provided but not defined: -" +++ fst p)
      else
        match snd p, rest with
        | Some v, _ => let q := set_flag (fst p) v f t in parse rest (fst q) (snd q)
        | None, v :: rest' => let q := set_flag (fst p) v f t in parse rest' (fst q) (snd q)
        | None, [] => bad_flag prog defaults ("flag needs an argument: -" +++ fst p)
        end
  end.
Proof.
  intros s name rest f t (dash & [->| ->] & -> & N); destruct name as [|d name]; try contradiction.
  - change ("-" +++ String d name) with (String "-" (String d name)). cbn [parse_flags].
    assert (E : Ascii.eqb d "-" = false) by (apply Ascii.eqb_neq; exact N). rewrite !E. cbn [andb]. rewrite ?E. reflexivity.
  - change ("--" +++ String d name) with (String "-" (String "-" (String d name))). reflexivity.
Qed.

Lemma arg_cases : forall s, not_flag s \/ s = "--" \/ (exists name, flag_arg s name) \/ exists s', s = String "-" (String "-" (String "-" s')).
Proof.
  intros [|c s]; [left; left; reflexivity|]. destruct (ascii_dec c "-") as [->|N]; [|left; right; right; exists c, s; auto].
  destruct s as [|d s]; [left; right; left; reflexivity|]. destruct (ascii_dec d "-") as [->|N].
  - destruct s as [|e s]; [tauto|]. destruct (ascii_dec e "-") as [->|N]; [right; right; right; exists s; reflexivity|].
    right. right. left. exists (String e s), "--". split; [tauto|]. split; [reflexivity|exact N].
  - right. right. left. exists (String d s), "-". split; [tauto|]. split; [reflexivity|exact N].
Qed.
Lemma parse_stop : forall s rest f t, not_flag s -> parse (s :: rest) f t = Args f t (s :: rest).
Proof.
  intros s rest f t [->|[->|(c & s' & -> & N)]]; try reflexivity. cbn [parse_flags].
  destruct c as [[] [] [] [] [] [] [] []]; try reflexivity. congruence.
Qed.

Theorem flags_parse : forall args f t f' t' rest, flags args f t f' t' rest -> parse args f t = Args f' t' rest.
Proof.
  intros args f t f' t' rest H.
  assert (Cut : forall name v, a_flag name -> cut_eq (name +++ "=" +++ v) = (name, Some v)) by (intros name v [->| ->]; reflexivity).
  induction H as [f t|s rest f t N|rest f t|dash name v args f t f' t' rest D A H IH|dash name v args f t f' t' rest D A H IH].
  - reflexivity.
  - apply parse_stop. exact N.
  - reflexivity.
  - rewrite (parse_flag _ (name +++ "=" +++ v)).
    + rewrite Cut by exact A. cbv zeta. cbn [fst snd].
      assert (K : known_flag name = true) by (apply known_spec; exact A). rewrite K. cbn [negb]. rewrite put_set by exact A. rewrite IH.
      destruct A as [->| ->]; reflexivity.
    + exists dash. split; [exact D|]. split; [reflexivity|]. destruct A as [->| ->]; discriminate.
  - rewrite (parse_flag _ name).
    + assert (C : cut_eq name = (name, None)) by (destruct A as [->| ->]; reflexivity). rewrite C. cbv zeta. cbn [fst snd].
      assert (K : known_flag name = true) by (apply known_spec; exact A). rewrite K. cbn [negb]. rewrite put_set by exact A. rewrite IH.
      destruct A as [->| ->]; reflexivity.
    + exists dash. split; [exact D|]. split; [reflexivity|]. destruct A as [->| ->]; discriminate.
Qed.

Theorem parse_cases : forall n args f t, List.length args < n ->
  (exists f' t' rest, flags args f t f' t' rest)
  \/ (exists o, parse args f t = Leave o /\ stdout o = "" /\ (code o = 2 \/ (code o = 0 /\ exists s, In s args /\ asks_help s))).
Proof.
  induction n as [|n IH]; intros args f t L; [lia|]. destruct args as [|s args].
  - left. exists f, t, []. constructor.
  - destruct (arg_cases s) as [N|[->|[(name & F)|(s' & ->)]]].
    + left. do 3 eexists. apply fl_stop. exact N.
    + left. do 3 eexists. apply fl_end.
    + assert (Ps := parse_flag s name args f t F). destruct F as (dash & D & Es & Nd).
      destruct name as [|d name]; [contradiction|]. set (nm := String d name) in *. 
      destruct (Ascii.eqb d "-" || Ascii.eqb d "="); [right; eexists; split; [exact Ps|split; [reflexivity|left; reflexivity]]|].
      cbv zeta in Ps. destruct (known_flag (fst (cut_eq nm))) eqn:K; cbn [negb] in Ps.
      * apply known_spec in K.
        destruct (snd (cut_eq nm)) as [v|] eqn:C.
        -- assert (Q := cut_eq_some nm v C). rewrite !put_set in Ps by exact K.
           destruct (IH args (fst (put (fst (cut_eq nm)) v f t)) (snd (put (fst (cut_eq nm)) v f t))) as [(f' & t' & rest & H)|(o & E & So & Co)]; [cbn in L; lia| |].
           ++ left. exists f', t', rest. rewrite Es, Q. apply fl_eq; assumption.
           ++ right. exists o. split; [congruence|]. split; [exact So|]. destruct Co as [Co|(Co & x & I & A)]; [left; exact Co|].
              right. split; [exact Co|]. exists x. split; [right; exact I|exact A].
        -- assert (Q := cut_eq_none nm C). destruct args as [|v args]; [right; eexists; split; [exact Ps|split; [reflexivity|left; reflexivity]]|].
           destruct (IH args (fst (put (fst (cut_eq nm)) v f t)) (snd (put (fst (cut_eq nm)) v f t))) as [(f' & t' & rest & H)|(o & E & So & Co)]; [cbn in L; lia| |].
           ++ left. exists f', t', rest. rewrite Es, <- Q. apply fl_next; assumption.
           ++ right. exists o. split; [rewrite Ps; rewrite put_set by exact K; exact E|]. split; [exact So|]. destruct Co as [Co|(Co & x & I & A)]; [left; exact Co|].
              right. split; [exact Co|]. exists x. split; [right; right; exact I|exact A].
      * right. destruct (String.eqb (fst (cut_eq nm)) "help" || String.eqb (fst (cut_eq nm)) "h") eqn:Hh.
        -- eexists. split; [exact Ps|]. split; [reflexivity|]. right. split; [reflexivity|]. exists s. split; [left; reflexivity|].
           exists dash, (fst (cut_eq nm)). split; [exact D|]. split.
           { apply orb_true_iff in Hh. rewrite !String.eqb_eq in Hh. tauto. }
           destruct (snd (cut_eq nm)) as [v|] eqn:C.
           ++ right. exists v. rewrite Es. rewrite (cut_eq_some nm v C) at 1. reflexivity.
           ++ left. rewrite (cut_eq_none nm C). exact Es.
        -- eexists. split; [exact Ps|]. split; [reflexivity|]. left. reflexivity.
    + right. eexists. split; [reflexivity|]. split; [reflexivity|]. left. reflexivity.
Qed.

(* Whoever is sent away is told how the program is used. *)
Lemma leave_usage : forall n args f t o, List.length args < n -> parse args f t = Leave o ->
  exists e, stderr o = e +++ "Usage of " +++ prog +++ ":" +++ nl +++ defaults.
Proof.
  assert (B : forall e o, bad_flag prog defaults e = Leave o -> exists e', stderr o = e' +++ "Usage of " +++ prog +++ ":" +++ nl +++ defaults).
  { intros e o H. unfold bad_flag in H. injection H as <-. exists (e +++ nl). cbn [stderr]. unfold flag_usage. rewrite !append_assoc. reflexivity. }
  induction n as [|n IH]; intros args f t o L H; [lia|]. destruct args as [|s args]; [discriminate|].
  destruct (arg_cases s) as [N|[->|[(name & F)|(s' & ->)]]].
  - rewrite parse_stop in H by exact N. discriminate.
  - discriminate.
  - rewrite (parse_flag s name args f t F) in H. destruct name as [|d name]; [destruct F as (? & _ & _ & F); contradiction|].
    destruct (Ascii.eqb d "-" || Ascii.eqb d "="); [exact (B _ _ H)|]. cbv zeta in H.
    destruct (negb (known_flag (fst (cut_eq (String d name))))).
    + destruct (_ || _) in H; [|exact (B _ _ H)]. exists "". injection H as <-. reflexivity.
    + destruct (snd (cut_eq (String d name))); [|destruct args as [|v args]; [exact (B _ _ H)|]];
        (eapply IH; [|exact H]); cbn in L; lia.
  - exact (B _ _ H).
Qed.
End Flags.
