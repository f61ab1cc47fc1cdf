(* Slices and maps of types inside structs: their text reads as an expression with their data. *)

From Verif Require Import Base GoType DetModel CtyModel CtySpec HclModel HclSpec HclParse HclScan HclRound
  TagModel StructModel StructSpec MarshalModel MarshalSpec MarshalText.
Local Open Scope nat_scope.

Scheme data_ind2 := Minimality for data Sort Prop
  with elements_ind2 := Minimality for elements Sort Prop
  with members_ind2 := Minimality for members Sort Prop.
Combined Scheme data_mut from data_ind2, elements_ind2, members_ind2.

Lemma list_text_solid : forall level arr, solid (list_text level arr).
Proof. intros level arr. destruct (list_text_end level arr) as (p & ->). apply solid_app. exists "", "]"%char. split; reflexivity. Qed.
Lemma block_text_solid : forall level arr, solid (block_text level arr).
Proof. intros level arr. unfold block_text. do 5 apply solid_app. exists "", "}"%char. split; reflexivity. Qed.

Section Data.
Variable E : env.
Variable is_zero : gtype -> hval -> bool.
Notation data := (data E is_zero).
Notation elements := (elements E is_zero).
Notation members := (members E is_zero).
Notation data_bytes := (data_bytes E is_zero).
Notation data_entry := (data_entry E is_zero).

Fixpoint data_elems (w : writer) (et : gtype) (level : nat) (l : list hval) : result (list string) :=
  match l with
  | [] => Ok []
  | x :: l' =>
    do b <- data_bytes w et x (S level) (Some nmr);
    do rest <- data_elems w et level l';
    Ok (match b with Some t => t | None => "[]" end :: rest)
  end.
Fixpoint data_entries (w : writer) (et : gtype) (level : nat) (kn : option string) (m : list (string * hval))
  : result (list string) :=
  match m with
  | [] => Ok []
  | (k, x) :: m' =>
    do here <- data_entry et x (data_bytes w et x (S level) None) level kn k;
    do rest <- data_entries w et level kn m';
    Ok (here ++ rest)%list
  end.

Lemma data_slice : forall w t et l level kn, is_zero t (HSlice l) = false ->
  under E t = TSlice et \/ under E t = TArray et ->
  data_bytes w t (HSlice l) level kn = (do arr <- data_elems w et level l; Ok (Some (list_text level arr))).
Proof.
  intros w t et l level kn Z U. cbn [MarshalModel.data_bytes]. rewrite Z.
  assert (X : (fix elems (l : list hval) : result (list string) :=
        match l with
        | [] => Ok []
        | x :: l' =>
          do b <- data_bytes w et x (S level) (Some nmr);
          do rest <- elems l';
          Ok (match b with Some t => t | None => "[]" end :: rest)
        end) l = data_elems w et level l).
  { clear. induction l as [|x l IH]; [reflexivity|]. cbn [data_elems]. rewrite <- IH. reflexivity. }
  destruct U as [U|U]; rewrite U; rewrite X; reflexivity.
Qed.
Lemma data_map : forall w t kt et m level kn, is_zero t (HMap m) = false ->
  under E t = TMap kt et -> under E kt = TBasic "string" ->
  data_bytes w t (HMap m) (S level) kn =
  (do arr <- data_entries w et (S level) kn m; Ok (Some (block_text (S level) arr))).
Proof.
  intros w t kt et m level kn Z U Uk. cbn [MarshalModel.data_bytes]. rewrite Z, U, Uk.
  assert (X : (fix entries (m : list (string * hval)) : result (list string) :=
          match m with
          | [] => Ok []
          | (k, x) :: m' =>
            do here <- data_entry et x (data_bytes w et x (S (S level)) None) (S level) kn k;
            do rest <- entries m';
            Ok (here ++ rest)%list
          end) m = data_entries w et (S level) kn m).
  { clear. induction m as [|[k x] m IH]; [reflexivity|]. cbn [data_entries]. rewrite <- IH. reflexivity. }
  rewrite X. unfold block_text. cbn [Nat.eqb]. destruct (data_entries w et (S level) kn m); cbn [bindr];
    rewrite ?append_assoc; reflexivity.
Qed.

(* The key name with which marshalLevel is called, by place. *)
Definition kn_of (p : place_of) : option string := match p with InList | InObj => Some nmr | _ => None end.
Definition typed_coll (v : hval) : Prop := (exists l, v = HSlice l) \/ exists m, v = HMap m.

Definition data_texts (p : place_of) (t : gtype) (v : hval) (n : native) : Prop :=
  (p = InList -> forall level, exists b, (forall w, data_bytes w t v (S level) (Some nmr) = Ok b)
     /\ reads (match b with Some s => s | None => "[]" end) n)
  /\ (p = InObj \/ p = InFlat -> forall level k, exists s,
       (forall w, data_entry t v (data_bytes w t v (S (S level)) None) (S level) (kn_of p) k = Ok [k +++ " = " +++ s])
       /\ reads s n)
  /\ (p <> InList -> is_zero t v = false -> typed_coll v -> forall level, exists s,
       (forall w, data_bytes w t v (S level) None = Ok (Some s)) /\ reads s n /\ solid s).

(* Entries whose text is found at once. *)
Lemma entry_short : forall t v sub level p k r, short_direct E t v = Some (Ok r) -> hash_item E t v = None ->
  nilable E t && is_zero t v = false ->
  data_entry t v sub level (kn_of p) k = Ok [k +++ " = " +++ r].
Proof.
  intros t v sub level p k r Sd Hi Z. unfold MarshalModel.data_entry. rewrite Z, Sd, Hi.
  destruct p; reflexivity.
Qed.
(* Entries whose text is that of marshalLevel. *)
Lemma entry_long : forall t v sub level p k r, p = InObj \/ (p = InFlat /\ hash_item E t v = None) ->
  short_direct E t v = None -> nilable E t && is_zero t v = false -> sub = Ok (Some r) ->
  data_entry t v sub level (kn_of p) k = Ok [k +++ " = " +++ r].
Proof.
  intros t v sub level p k r Hp Sd Z ->. unfold MarshalModel.data_entry. rewrite Z, Sd.
  destruct Hp as [->|[-> ->]]; reflexivity.
Qed.

Lemma scalar_kinds : forall k, scalar_kind k -> existsb (String.eqb k) short_types = true.
Proof.
  intros k H. unfold scalar_kind in H. cbn [In] in H. repeat (destruct H as [<-|H]; [reflexivity|]). destruct H.
Qed.
Lemma basic_nilable : forall k, nilable E (TBasic k) = false.
Proof. reflexivity. Qed.

(* A predeclared scalar. *)
Lemma scalar_case : forall p k v n r, direct_scalar (TBasic k) v = Some (Ok r) -> reads r n ->
  (p = InList -> is_zero (TBasic k) v = false) -> ~ typed_coll v -> data_texts p (TBasic k) v n.
Proof.
  intros p k v n r D R Z Nt. split; [|split].
  - intros -> level. exists (Some r). split; [intros w|exact R]. specialize (Z eq_refl).
    destruct v; cbn [MarshalModel.data_bytes]; rewrite Z; cbn [GoType.under under]; rewrite D; reflexivity.
  - intros _ level j. exists r. split; [intros w|exact R]. apply entry_short.
    + unfold short_direct. cbn [GoType.under under]. exact D.
    + unfold hash_item. cbn [GoType.under under hash_type]. destruct v; reflexivity.
    + reflexivity.
  - intros _ _ H. destruct (Nt H).
Qed.

Lemma flat_obj : forall n, supported InFlat n -> supported InObj n.
Proof.
  intros n H. inversion H as [p v S Z|p N|p l Hl| | | | | |]; subst.
  - apply su_scalar; [exact S|discriminate].
  - apply su_null. discriminate.
  - apply su_list. exact Hl.
Qed.

Lemma scalar_dec : forall n, (exists r, scalar_text n = Some r) \/ scalar_text n = None.
Proof. intros n. destruct (scalar_text n) eqn:X; eauto. Qed.

Lemma scalar_texts : forall n, scalar n -> scalar_text n <> None.
Proof. intros n H. destruct H; discriminate. Qed.

Lemma generic_bytes : forall w t n level kn, generic E t n -> is_zero t (HNative n) = false ->
  data_bytes w t (HNative n) level kn = marshal_level n level kn.
Proof.
  intros w t n level kn G Z. cbn [MarshalModel.data_bytes]. rewrite Z.
  destruct G as [(ms & U)|[(et & l & U & _)|(kt & et & m & U & _)]]; rewrite U; reflexivity.
Qed.

Lemma supported_scalar : forall p n r, supported p n -> n <> NNil -> scalar_text n = Some r -> scalar n.
Proof.
  intros p n r H N X. inversion H; subst; try discriminate X; try congruence; assumption.
Qed.
Lemma flat_cases : forall n, supported InFlat n -> n <> NNil -> scalar n \/ exists l, n = NList l.
Proof. intros n H N. inversion H; subst; [tauto|congruence|right; eauto]. Qed.

Lemma generic_case : forall p t n, generic E t n -> is_zero t (HNative n) = false -> n <> NNil -> supported p n ->
  data_texts p t (HNative n) n.
Proof.
  intros p t n G Z N Su. split; [|split].
  - intros -> level. destruct (proj1 (expr_text n) level Su) as (b & Eb & Rb). exists b.
    split; [intros w; rewrite generic_bytes by assumption; exact Eb|exact Rb].
  - intros Hp level k.
    assert (So : supported InObj n) by (destruct Hp as [->| ->]; [exact Su|apply flat_obj; exact Su]).
    destruct (proj1 (proj2 (expr_text n)) (S level) So N) as (s & Es & Rs). exists s.
    split; [intros w; rewrite generic_bytes by assumption|exact Rs].
    unfold direct_text in Es.
    assert (Zn : nilable E t && is_zero t (HNative n) = false) by (rewrite Z; apply andb_false_r).
    assert (Hi : p = InFlat -> hash_item E t (HNative n) = None).
    { intros ->. destruct (flat_cases n Su N) as [Sc|(l & ->)].
      - destruct G as [(ms & U)|[(et & l & _ & _ & ->)|(kt & et & m & _ & _ & ->)]]; [|inversion Sc..].
        unfold hash_item. rewrite U. destruct Sc; reflexivity.
      - destruct G as [(ms & U)|[(et & l' & U & _)|(kt & et & m & _ & _ & X)]]; [..|discriminate X]; unfold hash_item; rewrite U.
        + reflexivity.
        + destruct t; try reflexivity. discriminate U. }
    destruct (scalar_text n) as [r|] eqn:Sn.
    + subst r. assert (Sc := supported_scalar _ _ _ Su N Sn).
      assert (Ui : is_interface E t).
      { destruct G as [G|[(et & l & _ & _ & ->)|(kt & et & m & _ & _ & ->)]]; [exact G|inversion Sc..]. }
      destruct Ui as (ms & U). apply entry_short; [unfold short_direct; rewrite U; exact Sn| |exact Zn].
      unfold hash_item. rewrite U. destruct Sc; reflexivity.
    + assert (X : exists b, marshal_level n (S (S level)) None = Ok (Some b)).
      { inversion So as [p' v S0 Z0|p' Np|p' l Hl| | |m Nd Hm| | |]; subst.
        - exfalso. exact (scalar_texts n S0 Sn).
        - congruence.
        - rewrite marshal_list in Es |- *. destruct (elems _ l); try discriminate Es. eexists. reflexivity.
        - rewrite marshal_map_S in Es |- *. destruct (entries _ _ m); try discriminate Es. eexists. reflexivity. }
      destruct X as (b & Eb). rewrite Eb in Es |- *. injection Es as <-.
      apply entry_long; [destruct Hp as [->| ->]; [left; reflexivity|right; split; [reflexivity|apply Hi; reflexivity]]| |exact Zn|reflexivity].
      unfold short_direct. destruct G as [(ms & U)|[(et & l & U & _)|(kt & et & m & U & _)]]; rewrite U; [exact Sn|..].
      all: destruct t; try reflexivity; discriminate U.
  - intros _ _ [(l & X)|(m & X)]; discriminate X.
Qed.

(* A slice or map whose text is given for both places. *)
Lemma coll_case : forall p t v n, (exists et, under E t = TSlice et \/ under E t = TArray et) \/
    (exists kt et, under E t = TMap kt et /\ ~ is_interface E et) -> is_zero t v = false -> typed_coll v ->
  (forall level, exists s, (forall w, data_bytes w t v (S level) (match p with InList => Some nmr | _ => None end) = Ok (Some s))
     /\ reads s n /\ solid s) -> data_texts p t v n.
Proof.
  intros p t v n U Z C H. split; [|split].
  - intros -> level. destruct (H level) as (s & Es & Rs & _). exists (Some s). split; assumption.
  - intros Hp level k. destruct (H (S level)) as (s & Es & Rs & _). exists s. split; [intros w|exact Rs].
    assert (Nb : forall k, t <> TBasic k).
    { intros j ->. destruct U as [(et & [U|U])|(kt & et & U & _)]; discriminate U. }
    assert (Ni : match under E t with TIface _ => False | _ => True end).
    { destruct U as [(et & [U|U])|(kt & et & U & _)]; rewrite U; exact Logic.I. }
    apply entry_long; [| |rewrite Z; apply andb_false_r|destruct Hp as [->| ->]; apply Es].
    + destruct Hp as [->| ->]; [left; reflexivity|right; split; [reflexivity|]].
      assert (Ht : hash_type t = false).
      { destruct t as [x|x|x|x|kt et|x|x|x]; try reflexivity.
        destruct U as [(et' & [U|U])|(kt' & et' & U & Ne)]; try discriminate U. injection U as <- <-.
        destruct kt as [x|x|x|x|y x|x|x|kk]; try reflexivity. cbn [hash_type].
        destruct et as [x|x|x|x|y x|x|ms|x]; try (repeat (destruct kk as [|[[] [] [] [] [] [] [] []] kk]; try reflexivity)).
        exfalso. apply Ne. eexists. reflexivity. }
      unfold hash_item. destruct (under E t); try contradiction; rewrite Ht; destruct v; reflexivity.
    + unfold short_direct. destruct (under E t); try contradiction; destruct t; try reflexivity; exfalso; eapply Nb; reflexivity.
  - intros Np _ _ level. destruct (H level) as (s & Es & Rs). exists s. split; [|exact Rs]. destruct p; congruence || exact Es.
Qed.

Lemma no_iface_short : forall t v, ~ is_interface E t -> short_direct E t v = direct_scalar t v.
Proof. intros t v H. unfold short_direct. destruct (under E t) eqn:U; try reflexivity. exfalso. apply H. eexists. exact U. Qed.

Lemma members_keys : forall p et m ns, members p et m ns -> keys ns = keys m.
Proof. intros p et m ns H. induction H as [|p et k x m n ns Hk Hd Hm IH]; [reflexivity|]. cbn. f_equal. exact IH. Qed.

Theorem data_reads :
  (forall p t v n, data p t v n -> data_texts p t v n)
  /\ (forall et l ns, elements et l ns -> forall level, exists arr,
       (forall w, data_elems w et (S level) l = Ok arr) /\ Forall2 reads arr ns)
  /\ (forall p et m ns, members p et m ns -> p = InObj \/ p = InFlat -> forall level, exists arr,
       (forall w, data_entries w et (S level) (kn_of p) m = Ok arr) /\ Forall2 line_reads arr ns).
Proof.
  apply data_mut.
  - intros p s Q Z. apply (scalar_case p "string" _ _ (quote +++ s +++ quote)); [reflexivity|apply reads_str; exact Q|exact Z|].
    intros [(l & X)|(m & X)]; discriminate X.
  - intros p k n K S0 Z. destruct (scalar_reads n S0) as (r & Sr & R & _).
    apply (scalar_case p k _ _ r); [|exact R|exact Z|intros [(l & X)|(m & X)]; discriminate X].
    unfold direct_scalar. rewrite (scalar_kinds k K), Sr. reflexivity.
  - intros p t n G Z N Su. apply generic_case; assumption.
  - intros p t u x n (ms & U) Nu Z Zu _ (H1 & H2 & H3).
    assert (B : forall w level kn, data_bytes w t (HDyn u x) level kn = data_bytes w u x level kn).
    { intros w level kn. cbn [MarshalModel.data_bytes]. rewrite Z, U. reflexivity. }
    split; [|split].
    + intros Hp level. destruct (H1 Hp level) as (b & Eb & Rb). exists b. split; [intros w; rewrite B; apply Eb|exact Rb].
    + intros Hp level k. destruct (H2 Hp level k) as (s & Es & Rs). exists s. split; [intros w; rewrite B|exact Rs].
      rewrite <- (Es w). unfold MarshalModel.data_entry. rewrite Z, Zu, !andb_false_r.
      rewrite (no_iface_short u x Nu). unfold short_direct, hash_item. rewrite U.
      destruct (under E u) eqn:Uu; try (exfalso; apply Nu; eexists; exact Uu); destruct (hash_type u), x; reflexivity.
    + intros _ _ [(l & X)|(m & X)]; discriminate X.
  - intros t v et U Z. split; [|split].
    + intros _ level. exists None. split; [intros w|exact reads_empty].
      destruct v; cbn [MarshalModel.data_bytes]; rewrite Z; reflexivity.
    + intros [H|H]; discriminate H.
    + intros _ Z'. congruence.
  - intros p t v Np M Z. split; [|split].
    + intros H. congruence.
    + intros _ level k. exists "null()". split; [intros w|exact reads_null].
      unfold MarshalModel.data_entry. replace (nilable E t) with true; [rewrite Z; reflexivity|].
      unfold nilable. destruct M as [(ms & U)|[(u & U)|(et & [U|(kt & U)])]]; rewrite U; reflexivity.
    + intros _ Z'. congruence.
  - intros p t et l ns U Z _ IH. apply coll_case; [left; eauto|exact Z|left; eauto|].
    intros level. destruct (IH level) as (arr & Ea & Fa). exists (list_text (S level) arr).
    split; [intros w; rewrite (data_slice w t et l _ _ Z U), Ea; reflexivity|]. split; [apply reads_list; exact Fa|apply list_text_solid].
  - intros p t kt et m ns U Uk Ne Z Nd Hm IH. apply coll_case; [right; eauto|exact Z|right; eauto|].
    intros level. assert (Hp : entry_place p = InObj \/ entry_place p = InFlat) by (destruct p; cbn; tauto).
    destruct (IH Hp level) as (arr & Ea & Fa). exists (block_text (S level) arr).
    replace (match p with InList => Some nmr | _ => None end) with (kn_of (entry_place p)) by (destruct p; reflexivity).
    split; [intros w; rewrite (data_map w t kt et m _ _ Z U Uk), Ea; reflexivity|].
    split; [apply reads_obj; [exact Fa|rewrite (members_keys _ _ _ _ Hm); exact Nd]|apply block_text_solid].
  - intros et level. exists []. split; [reflexivity|constructor].
  - intros et x l n ns _ (H1 & _) _ IH level. destruct (H1 eq_refl (S level)) as (b & Eb & Rb).
    destruct (IH level) as (arr & Ea & Fa). eexists.
    split; [intros w; cbn [data_elems]; rewrite Eb; cbn [bindr]; rewrite Ea; reflexivity|]. constructor; assumption.
  - intros p et _ level. exists []. split; [reflexivity|constructor].
  - intros p et k x m n ns Hk _ (_ & H2 & _) _ IH Hp level. destruct (H2 Hp level k) as (s & Es & Rs).
    destruct (IH Hp level) as (arr & Ea & Fa). eexists.
    split; [intros w; cbn [data_entries]; rewrite Es; cbn [bindr]; rewrite Ea; reflexivity|]. constructor; [|exact Fa]. exists s. cbn [fst snd]. auto.
Qed.
End Data.
