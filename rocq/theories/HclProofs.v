(* Consequences of the decoding and round trip theorems. *)

From Verif Require Import Base CtyModel CtySpec CtyProofs CtyProofs2 HclModel HclSpec
  HclDecode HclParse HclScan HclRound.
From Coq Require Import Lia.
Local Open Scope nat_scope.

(* ----- nothing is lost from a uniform body ----- *)

Lemma named_in : forall its i, In i its -> In i (named (item_name i) its).
Proof.
  intros its i I. apply filter_In. split; [exact I|].
  destruct (string_dec (item_name i) (item_name i)); congruence.
Qed.

Lemma unlabelled_blocks : forall k bs, unlabelled (map (IBlock k []) bs) = bs
  /\ labelled1 (map (IBlock k []) bs) = [] /\ labelled2 (map (IBlock k []) bs) = [].
Proof.
  intros k bs. induction bs as [|b bs (H1 & H2 & H3)]; [repeat split|].
  cbn. rewrite H1, H2, H3. repeat split.
Qed.
Lemma labelled1_blocks : forall k (bs : list (string * list item)),
  labelled1 (map (fun b => IBlock k [fst b] (snd b)) bs) = bs
  /\ labelled2 (map (fun b => IBlock k [fst b] (snd b)) bs) = [].
Proof.
  intros k bs. induction bs as [|[l b] bs (H1 & H2)]; [repeat split|]. cbn. rewrite H1, H2. repeat split.
Qed.
Definition pair2 (b : string * string * list item) : string * (string * list item) :=
  (fst (fst b), (snd (fst b), snd b)).
Lemma labelled2_blocks : forall k (bs : list (string * string * list item)),
  labelled2 (map (fun b => IBlock k [fst (fst b); snd (fst b)] (snd b)) bs) = map pair2 bs.
Proof.
  intros k bs. induction bs as [|[[l1 l2] b] bs H]; [repeat split|]. cbn. rewrite H. reflexivity.
Qed.
Lemma under_nodup : forall bs l1 l2 b, NoDup (map fst bs) -> In (l1, l2, b) bs ->
  NoDup (keys (under l1 (map pair2 bs))) /\ In (l2, b) (under l1 (map pair2 bs)).
Proof.
  assert (A : forall bs l1 l2, In l2 (keys (under l1 (map pair2 bs))) -> In (l1, l2) (map fst bs)).
  { intros bs l1 l2 H. unfold keys in H. apply in_map_iff in H. destruct H as ([l b] & E & H).
    cbn in E. subst l. apply in_under in H. apply in_map_iff in H.
    destruct H as ([[a c] d] & E & H). unfold pair2 in E. cbn in E. injection E as -> -> ->.
    apply in_map_iff. exists (l1, l2, b). auto. }
  intros bs l1 l2 b N H. split.
  - clear l2 b H. induction bs as [|[[a c] d] bs IH]; [constructor|].
    cbn in N. inversion N as [|? ? N1 N2]; subst.
    unfold under in *. cbn [map pair2 fst snd filter]. destruct (string_dec a l1) as [->|]; [|exact (IH N2)].
    cbn. constructor; [|exact (IH N2)]. intros X. apply N1. apply (A bs l1 c). exact X.
  - apply in_map_iff. exists (pair2 (l1, l2, b)). split; [reflexivity|]. apply filter_In. split.
    + apply in_map. exact H.
    + unfold pair2. cbn [fst]. destruct (string_dec l1 l1); congruence.
Qed.

Lemma last_nodup : forall A (bs : list (string * A)) l b, NoDup (keys bs) -> In (l, b) bs ->
  last_entry l bs = Some b.
Proof. intros A bs l b N I. rewrite last_entry_nodup by exact N. apply In_lookup; assumption. Qed.

Theorem uniform_found : forall its obj, uniform its -> body_value its (NMap obj) ->
  forall i, In i its -> found obj i.
Proof.
  intros its obj U B i I. inversion B as [its' obj' Few N L1 L2]; subst.
  assert (Hn := named_in its i I). remember (item_name i) as k eqn:Ek.
  destruct (lookup k obj) as [v|] eqn:Ev.
  2:{ apply L1 in Ev. rewrite Ev in Hn. destruct Hn. }
  specialize (L2 k v Ev).
  destruct (U k) as [(e & E)|[(bs & E)|[(bs & Nb & E)|(bs & Nb & E)]]]; rewrite E in Hn, L2.
  - destruct Hn as [<-|[]]. inversion L2; subst; cbn in *; try discriminate; try congruence; try lia.
    exists v. auto.
  - apply in_map_iff in Hn. destruct Hn as (b & <- & Ib). clear Ek.
    destruct (unlabelled_blocks k bs) as (U0 & U1 & U2).
    cbn [found]. inversion L2 as [k0 e v0 X Eq|its0 b0 v0 _ _ X Y|its0 vs _ _ X Y|its0 mm _ X|its0 mm X]; subst.
    + destruct bs; discriminate.
    + rewrite U0 in X. subst bs. destruct Ib as [->|[]]. exists v. auto.
    + rewrite U0 in X, Y.
      assert (Z : exists w, In w vs /\ body_value b w).
      { clear -Ib Y. induction Y as [|a w bs vs H F IH]; [destruct Ib|]. destruct Ib as [->|Ib].
        - exists w. split; [left; reflexivity|exact H].
        - destruct (IH Ib) as (w' & I & H'). exists w'. split; [right; exact I|exact H']. }
      destruct Z as (w & Iw & Hw). exists w. split; [exact Hw|]. right. exists vs. auto.
    + rewrite U1 in X. congruence.
    + rewrite U2 in X. congruence.
  - apply in_map_iff in Hn. destruct Hn as ([l b] & <- & Ib). clear Ek.
    destruct (labelled1_blocks k bs) as (U1 & U2).
    assert (Nbs : bs <> []) by (intros ->; destruct Ib).
    cbn [found fst snd]. inversion L2 as [k0 e v0 X Eq|its0 b0 v0 _ X|its0 vs _ X|its0 mm _ _ N' M1 M2|its0 mm X]; subst.
    + destruct bs; discriminate.
    + rewrite U1 in X. congruence.
    + rewrite U1 in X. congruence.
    + rewrite U1 in M1, M2. assert (Ll := last_nodup _ bs l b Nb Ib).
      destruct (lookup l mm) as [w|] eqn:Ew; [|apply M1 in Ew; congruence].
      exists mm, w. split; [exact Ev|]. split; [exact Ew|]. exact (M2 l b w Ll Ew).
    + rewrite U2 in X. congruence.
  - apply in_map_iff in Hn. destruct Hn as ([[l1 l2] b] & <- & Ib). clear Ek.
    assert (U2 := labelled2_blocks k bs).
    assert (Nbs : map pair2 bs <> []) by (destruct bs; [destruct Ib|discriminate]).
    destruct (under_nodup bs l1 l2 b Nb Ib) as [Nu Iu].
    cbn [found fst snd]. inversion L2 as [k0 e v0 X Eq|its0 b0 v0 X|its0 vs X|its0 mm X|its0 mm _ N' M1 M2]; subst;
      try (rewrite U2 in X; congruence).
    + destruct bs; discriminate.
    + rewrite U2 in M1, M2.
      destruct (lookup l1 mm) as [w|] eqn:Ew.
      2:{ apply M1 in Ew. rewrite Ew in Iu. destruct Iu. }
      specialize (M2 l1 w Ew). inversion M2 as [bs' m2 N2 K1 K2]; subst.
      assert (Ll := last_nodup _ _ l2 b Nu Iu).
      destruct (lookup l2 m2) as [x|] eqn:Ex; [|apply K1 in Ex; congruence].
      exists mm, m2, x. split; [exact Ev|]. split; [exact Ew|]. split; [exact Ex|]. exact (K2 l2 b x Ll Ex).
Qed.

(* ----- lists of scalars ----- *)

(* Zeros and nulls are printed like the nil slice. *)
Definition blank (v : native) : native :=
  if go_zero v then NNilList else match v with NNil => NNilList | _ => v end.

Lemma blank_prints : forall v level, scalar v \/ v = NNil ->
  marshal_level (blank v) level (Some nmr) = marshal_level v level (Some nmr).
Proof.
  intros v level H. unfold blank. destruct (go_zero v) eqn:G.
  - destruct v; cbn [marshal_level]; rewrite G; reflexivity.
  - destruct v; reflexivity.
Qed.

Lemma zero_go_zero : forall v, scalar v -> (go_zero v = true <-> zero_scalar v).
Proof.
  intros v S. unfold zero_scalar. split.
  - intros G. destruct S as [s Q|b|z I|z I N|d [Hp _]|d [Hp _]]; cbn in G.
    + destruct s; [tauto|discriminate].
    + destruct b; [discriminate|tauto].
    + destruct z; [tauto|discriminate..].
    + destruct z; [tauto|discriminate..].
    + lia.
    + lia.
  - intros [->|[->|[->| ->]]]; reflexivity.
Qed.

Theorem list_back : forall k l, body_key k -> (forall v, In v l -> scalar v \/ v = NNil) ->
  exists t obj u, marshal (NMap [(k, NList l)]) = Ok (Some t) /\ decode_map t = Ok (NMap obj)
    /\ lookup k obj = Some u
    /\ ((l = [] /\ u = NNilList) \/ exists l', u = NList l' /\ Forall2 element_back l l').
Proof.
  intros k l K H.
  assert (P : marshal (NMap [(k, NList l)]) = marshal (NMap [(k, NList (map blank l))])).
  { unfold marshal. rewrite !marshal_map. cbn [entries entry is_nmr loop_hash hash_kind is_hash_all
      Nat.leb andb scalar_text]. rewrite !marshal_list.
    assert (E : elems 1 (map blank l) = elems 1 l); [|rewrite E; reflexivity].
    clear K. induction l as [|v l IH]; [reflexivity|]. cbn [map elems].
    rewrite blank_prints by (apply H; left; reflexivity).
    rewrite IH by (intros w I; apply H; right; exact I). reflexivity. }
  assert (B : body_map [(k, NList (map blank l))]).
  { constructor; [cbn; constructor; [intros []|constructor]|]. intros k' v [[= <- <-]|[]]. split; [exact K|].
    apply su_list. intros v I. apply in_map_iff in I. destruct I as (w & <- & I).
    unfold blank. destruct (go_zero w) eqn:G; [apply su_nil_elem|].
    destruct (H w I) as [S| ->]; [|apply su_nil_elem].
    destruct w; try (apply su_scalar; [exact S|intros _ Z; apply (zero_go_zero _ S) in Z; congruence]).
    apply su_nil_elem. }
  assert (Ne : [(k, NList (map blank l))] <> []) by discriminate.
  destruct (doc_round_trip _ Ne B) as (t & v & E1 & E2 & Sm).
  inversion Sm as [v0 S0| | | | | | |m m' N1 N2 L1 L2]; subst; [inversion S0|].
  exists t, m'. destruct (lookup k m') as [u|] eqn:Eu.
  2:{ apply L1 in Eu. cbn [lookup] in Eu. destruct (eq_dec k k); congruence. }
  exists u. split; [rewrite P; exact E1|]. split; [exact E2|]. split; [reflexivity|].
  assert (Su : same (NList (map blank l)) u).
  { apply (L2 k); [|exact Eu]. cbn [lookup]. destruct (eq_dec k k); congruence. }
  inversion Su as [v0 S0| | | | | |l0 l' Nl F|]; subst; [inversion S0| |].
  - left. destruct l; [auto|discriminate].
  - right. exists l'. split; [reflexivity|]. clear -F H.
    assert (F' : Forall2 (fun v w => same (blank v) w) l l') by (apply Forall2_map_l; exact F).
    apply Forall2_in_impl with (2 := F'). intros v w I S. unfold element_back, blank in *.
    destruct (H v I) as [Sc| ->].
    + destruct (go_zero v) eqn:G.
      * left. split; [left; apply zero_go_zero; assumption|]. inversion S as [x Sx| | | | | | |]; subst; [inversion Sx|reflexivity].
      * right. split; [intros Z; apply (zero_go_zero v Sc) in Z; congruence|].
        split; [intros ->; inversion Sc|]. destruct v; try exact S. inversion Sc.
    + left. split; [right; reflexivity|]. cbn in S. inversion S as [x Sx| | | | | | |]; subst; [inversion Sx|reflexivity].
Qed.

(* ----- documents ----- *)

(* Text that decodeMap reads as an object rather than as a body. *)
Definition object_text (s : string) : Prop :=
  exists r, trim s = String "{" r /\ last_char (String "{" r) = Some "}"%char.

Theorem document_sound : forall s v, decode_map s = Ok v ->
  (exists its, parse_config s = Ok its /\ body_value its v)
  \/ (object_text s /\ exists its m, parse_config ("x = " +++ s) = Ok its
        /\ first_expr its = Some (EObj m) /\ expr_value (EObj m) v).
Proof.
  intros s v H. unfold decode_map in H. destruct (trim s) as [|c r] eqn:T; [discriminate|].
  destruct (Ascii.eqb c "{" && _) eqn:E.
  - right. apply andb_true_iff in E. destruct E as [E1 E2]. apply Ascii.eqb_eq in E1. subst c.
    split.
    + exists r. split; [exact T|]. destruct (last_char (String "{" r)) as [d|]; [|discriminate].
      apply Ascii.eqb_eq in E2. subst d. reflexivity.
    + apply bindr_Ok in H. destruct H as (its & Hi & H).
      destruct (first_expr its) as [[]|] eqn:F; try discriminate.
      exists its. eexists. split; [exact Hi|]. split; [exact F|]. apply expr_sound. exact H.
  - left. apply bindr_Ok in H. destruct H as (its & Hi & H). exists its. split; [exact Hi|].
    apply decode_sound; [exact (parse_distinct s its Hi)|exact H].
Qed.
