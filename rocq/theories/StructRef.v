(* The reference map: what earlier decoding leaves in it does not matter (C32), as long as
   types have different names and the classes of the spec are not type names. *)

From Verif Require Import Base GoType SpecModel CollectModel DetModel CtyModel HclModel TagModel
  TagSpec TagProofs StructModel StructSpec StructFields StructRun.
From Coq Require Import Lia.

Section Ref.
Variable E : env.
Variable depth : nat.
Variable type_string : gtype -> string.
Variable zero : gtype -> hval.
Variable assignable : gtype -> gtype -> bool.
Variable decode_attr : gtype -> cval -> result hval.
Variable hook : gtype -> option (string -> list string -> hval -> hval * result unit).

Notation names_type := (names_type E type_string).
Notation user_class := (user_class E type_string).
Hypothesis distinct : distinct_names E type_string.

Notation loop_fields := (loop_fields E type_string zero).
Notation tagged_field := (tagged_field E type_string zero).
Notation loop_field := (loop_field E type_string zero).

(* Entries under type names, if any, are new objects of the type. *)
Definition ref_ok (ref : hrefmap) : Prop := forall s u, names_type s u ->
  lookup s ref = None \/ lookup s ref = Some (RObj u (zero u)).
Definition same_user (r1 r2 : hrefmap) : Prop := forall s, user_class s -> lookup s r1 = lookup s r2.
(* Entries are only added, and only under type names. *)
Definition grows (r r' : hrefmap) : Prop :=
  (forall s, user_class s -> lookup s r' = lookup s r) /\
  (forall s u, names_type s u -> lookup s r = Some (RObj u (zero u)) -> lookup s r' = Some (RObj u (zero u))).

Lemma grows_refl : forall r, grows r r.
Proof. intro r. split; auto. Qed.
Lemma grows_trans : forall a b c, grows a b -> grows b c -> grows a c.
Proof.
  intros a b c (A1 & A2) (B1 & B2). split.
  - intros s U. rewrite (B1 s U). exact (A1 s U).
  - intros s u N H. apply B2; [exact N|]. exact (A2 s u N H).
Qed.
Lemma grows_same : forall a b a' b', grows a a' -> grows b b' -> same_user a b -> same_user a' b'.
Proof. intros a b a' b' (A & _) (B & _) S s U. rewrite (A s U), (B s U). exact (S s U). Qed.

Lemma register : forall s u ref, names_type s u -> ref_ok ref ->
  ref_ok (insert s (RObj u (zero u)) ref) /\ grows ref (insert s (RObj u (zero u)) ref)
  /\ lookup s (insert s (RObj u (zero u)) ref) = Some (RObj u (zero u)).
Proof.
  intros s u ref N O.
  assert (L : forall k, lookup k (insert s (RObj u (zero u)) ref) = if string_dec k s then Some (RObj u (zero u)) else lookup k ref).
  { intro k. destruct (string_dec k s) as [->|NE]; [apply lookup_insert_eq|apply lookup_insert_ne; congruence]. }
  split; [|split; [split|apply lookup_insert_eq]].
  - intros k w N'. rewrite L. destruct (string_dec k s) as [->|NE]; [|exact (O k w N')].
    right. rewrite (distinct _ _ _ N N'). reflexivity.
  - intros k U. rewrite L. destruct (string_dec k s) as [->|NE]; [|reflexivity]. exfalso. exact (U u N).
  - intros k w N' H. rewrite L. destruct (string_dec k s) as [->|NE]; [|exact H].
    rewrite (distinct _ _ _ N N'). reflexivity.
Qed.

(* A spec value whose classes are the user's, or that names a type registered in ref. *)
Definition user_value (v : svalue) : Prop := forall s c, value_struct v s -> spec_class s c -> user_class c.
Definition default_value (ref : hrefmap) (v : svalue) : Prop := exists s u,
  names_type s u /\ lookup s ref = Some (RObj u (zero u)) /\ (forall x, value_struct v x -> x = plain_struct s).
Definition level_ok (ref : hrefmap) (m : list (string * svalue)) : Prop :=
  forall k v, lookup k m = Some v -> user_value v \/ default_value ref v.

Lemma default_grows : forall r r' v, grows r r' -> default_value r v -> default_value r' v.
Proof. intros r r' v (_ & G) (s & u & N & L & X). exists s, u. auto. Qed.
Lemma level_grows : forall r r' m, grows r r' -> level_ok r m -> level_ok r' m.
Proof.
  intros r r' m G H k v L. destruct (H k v L) as [U|D]; [left; exact U|right].
  exact (default_grows _ _ _ G D).
Qed.
Lemma level_insert : forall ref m k v, level_ok ref m -> default_value ref v -> level_ok ref (insert k v m).
Proof.
  intros ref m k v H D k' v' L. destruct (string_dec k' k) as [->|NE].
  - rewrite lookup_insert_eq in L. injection L as <-. right. exact D.
  - rewrite lookup_insert_ne in L by congruence. exact (H k' v' L).
Qed.

(* Two outcomes of loop_fields from different reference maps. *)
Definition lists_rel (r1 r2 : hrefmap) (x1 x2 : result lists) : Prop :=
  match x1, x2 with
  | Ok L1, Ok L2 =>
    l_labels L1 = l_labels L2 /\ l_new L1 = l_new L2 /\ l_ori L1 = l_ori L2 /\ l_dec L1 = l_dec L2 /\
    l_map L1 = l_map L2 /\ grows r1 (l_ref L1) /\ grows r2 (l_ref L2) /\ ref_ok (l_ref L1) /\ ref_ok (l_ref L2) /\
    level_ok (l_ref L1) (l_map L1) /\ level_ok (l_ref L2) (l_map L2)
  | Err a, Err b => a = b
  | Panic a, Panic b => a = b
  | _, _ => False
  end.

Lemma one_rel : forall c f m r1 r2, ref_ok r1 -> ref_ok r2 -> level_ok r1 m -> level_ok r2 m ->
  lists_rel r1 r2 (Ok (one c f m r1)) (Ok (one c f m r2)).
Proof. intros [] f m r1 r2 O1 O2 L1 L2; cbn; repeat split; auto. Qed.

Lemma registered_rel : forall f m r1 r2 s u v, ref_ok r1 -> ref_ok r2 -> level_ok r1 m -> level_ok r2 m ->
  names_type s u -> (forall x, value_struct v x -> x = plain_struct s) ->
  lists_rel r1 r2 (Ok (one FOri f (insert (fname f) v m) (insert s (RObj u (zero u)) r1)))
                  (Ok (one FOri f (insert (fname f) v m) (insert s (RObj u (zero u)) r2))).
Proof.
  intros f m r1 r2 s u v O1 O2 L1 L2 N X.
  destruct (register s u r1 N O1) as (A1 & A2 & A3), (register s u r2 N O2) as (B1 & B2 & B3).
  cbn. do 5 (split; [reflexivity|]). do 4 (split; [assumption|]).
  split; apply level_insert.
  - exact (level_grows _ _ _ A2 L1).
  - exists s, u. auto.
  - exact (level_grows _ _ _ B2 L2).
  - exists s, u. auto.
Qed.

Lemma plain_single : forall s x, value_struct (VSingle (plain_struct s)) x -> x = plain_struct s.
Proof. intros s x H. inversion H. reflexivity. Qed.
Lemma plain_list : forall s x, value_struct (VList [plain_struct s]) x -> x = plain_struct s.
Proof. intros s x H. inversion H as [|l y I| |]; subst. destruct I as [I|[]]. congruence. Qed.
Lemma plain_map2 : forall s x, value_struct (VMap2 [("", [("", plain_struct s)])]) x -> x = plain_struct s.
Proof.
  intros s x H. inversion H as [| | |m k1 k2 ms y I1 I2]; subst.
  destruct I1 as [I1|[]]. injection I1 as <- <-. destruct I2 as [I2|[]]. congruence.
Qed.

Lemma tagged_rel : forall f m r1 r2, ref_ok r1 -> ref_ok r2 -> level_ok r1 m -> level_ok r2 m ->
  lists_rel r1 r2 (Ok (tagged_field f m r1)) (Ok (tagged_field f m r2)).
Proof.
  intros f m r1 r2 O1 O2 L1 L2. unfold StructModel.tagged_field.
  assert (Elem : forall et u, elem_class E et = Registered u -> names_type (type_string et) u).
  { intros et u H. unfold elem_class in H. destruct (under E et) eqn:U; try discriminate; injection H as <-.
    - right. exists et. auto.
    - left. split; [eexists; exact U|reflexivity]. }
  destruct (under E (elem_ptr E (ftype f))) as [| |et| |kt et| | |] eqn:U;
    try (apply one_rel; assumption).
  - destruct (elem_class E et) as [u|c] eqn:C; [|apply one_rel; assumption].
    apply registered_rel; try assumption; [exact (Elem _ _ C)|apply plain_list].
  - destruct (elem_class E et) as [u|c] eqn:C; [|apply one_rel; assumption].
    apply registered_rel; try assumption; [exact (Elem _ _ C)|].
    destruct (pair_key E kt); [apply plain_map2|apply plain_list].
  - apply registered_rel; try assumption; [|apply plain_single].
    left. split; [eexists; exact U|reflexivity].
Qed.

Lemma loop_fields_rel : forall n nulls fs m r1 r2, ref_ok r1 -> ref_ok r2 -> level_ok r1 m -> level_ok r2 m ->
  lists_rel r1 r2 (loop_fields n nulls fs m r1) (loop_fields n nulls fs m r2).
Proof.
  induction n as [|n IHn]; [intros; reflexivity|].
  intros nulls. induction fs as [|f fs IH]; intros m r1 r2 O1 O2 L1 L2.
  - apply (one_rel FSkip (GField "" false "" (TBasic "")) m r1 r2 O1 O2 L1 L2).
  - rewrite !loop_fields_cons.
    assert (H : lists_rel r1 r2 (loop_field n nulls f m r1) (loop_field n nulls f m r2)).
    { unfold StructFields.loop_field.
      destruct (negb (is_exported (fname f))); [apply (one_rel FSkip f); assumption|].
      destruct (tag2 (ftag f)) as [[tag what]| |]; cbn [bindr]; try reflexivity.
      destruct (grep nulls tag); [apply (one_rel FSkip f); assumption|].
      destruct (String.eqb (to_lower what) "label"); [apply (one_rel FLabel f); assumption|].
      destruct (tag_skipped tag); [apply (one_rel FSkip f); assumption|].
      destruct (lookup (fname f) m); [apply (one_rel FOri f); assumption|].
      destruct (String.eqb tag ""); [|apply tagged_rel; assumption].
      destruct (under E (elem_ptr E (ftype f))); try (apply (one_rel FSkip f); assumption).
      apply IHn; assumption. }
    destruct (loop_field n nulls f m r1) as [H1| |], (loop_field n nulls f m r2) as [H2| |];
      try contradiction; cbn [bindr]; try exact H.
    destruct H as (A1 & A2 & A3 & A4 & A5 & G1 & G2 & K1 & K2 & V1 & V2).
    rewrite <- A5 in V2 |- *.
    pose proof (IH (l_map H1) (l_ref H1) (l_ref H2) K1 K2 V1 V2) as R.
    destruct (loop_fields (S n) nulls fs (l_map H1) (l_ref H1)) as [R1| |],
      (loop_fields (S n) nulls fs (l_map H1) (l_ref H2)) as [R2| |]; try contradiction; cbn [bindr]; try exact R.
    destruct R as (B1 & B2 & B3 & B4 & B5 & G1' & G2' & K1' & K2' & V1' & V2').
    unfold join_lists. cbn.
    rewrite A1, A2, A3, A4, B1, B2, B3, B4.
    repeat (split; [try reflexivity; try assumption; eapply grows_trans; eassumption|]). exact V2'.
Qed.

(* ----- decoding blocks ----- *)

Definition linked (r1 r2 : hrefmap) : Prop := ref_ok r1 /\ ref_ok r2 /\ same_user r1 r2.
Definition both_grow (r1 r2 r1' r2' : hrefmap) : Prop :=
  grows r1 r1' /\ grows r2 r2' /\ ref_ok r1' /\ ref_ok r2'.
Lemma both_refl : forall r1 r2, linked r1 r2 -> both_grow r1 r2 r1 r2.
Proof. intros r1 r2 (A & B & _). repeat split; auto. Qed.
Lemma both_linked : forall r1 r2 r1' r2', linked r1 r2 -> both_grow r1 r2 r1' r2' -> linked r1' r2'.
Proof.
  intros r1 r2 r1' r2' (A & B & S) (G1 & G2 & O1 & O2). split; [exact O1|]. split; [exact O2|].
  exact (grows_same _ _ _ _ G1 G2 S).
Qed.
Lemma both_trans : forall r1 r2 a1 a2 b1 b2, both_grow r1 r2 a1 a2 -> both_grow a1 a2 b1 b2 -> both_grow r1 r2 b1 b2.
Proof.
  intros r1 r2 a1 a2 b1 b2 (G1 & G2 & _) (H1 & H2 & O1 & O2).
  split; [exact (grows_trans _ _ _ G1 H1)|]. split; [exact (grows_trans _ _ _ G2 H2)|]. auto.
Qed.

Definition outcome_rel {A} (r1 r2 : hrefmap) (x1 x2 : hrefmap * result A) : Prop :=
  snd x1 = snd x2 /\ both_grow r1 r2 (fst x1) (fst x2).
Definition triple_rel (r1 r2 : hrefmap) (x1 x2 : hval * hrefmap * result unit) : Prop :=
  fst (fst x1) = fst (fst x2) /\ snd x1 = snd x2 /\ both_grow r1 r2 (snd (fst x1)) (snd (fst x2)).

Definition user_fields (m : list (string * svalue)) : Prop := forall c, fields_class m c -> user_class c.
Definition dec_rel (dec : decoder) : Prop := forall s labels t v dat r1 r2, linked r1 r2 ->
  user_fields (spec_fields s) -> triple_rel r1 r2 (dec s r1 labels t v dat) (dec s r2 labels t v dat).

(* A struct of the spec that means the same for both maps. *)
Definition usable (r1 r2 : hrefmap) (s : sstruct) : Prop :=
  (forall c, spec_class s c -> user_class c) \/
  (exists c u, s = plain_struct c /\ names_type c u /\ lookup c r1 = Some (RObj u (zero u))
     /\ lookup c r2 = Some (RObj u (zero u))).
Lemma usable_grows : forall r1 r2 r1' r2' s, both_grow r1 r2 r1' r2' -> usable r1 r2 s -> usable r1' r2' s.
Proof.
  intros r1 r2 r1' r2' s ((_ & G1) & (_ & G2) & _) [U|(c & u & -> & N & L1 & L2)]; [left; exact U|].
  right. exists c, u. split; [reflexivity|]. split; [exact N|]. split; [exact (G1 c u N L1)|exact (G2 c u N L2)].
Qed.

Lemma class_object_rel : forall r1 r2 s, linked r1 r2 -> usable r1 r2 s ->
  class_object E zero r1 (class_name s) = class_object E zero r2 (class_name s).
Proof.
  intros r1 r2 s (_ & _ & S) U. unfold class_object.
  assert (L : lookup (class_name s) r1 = lookup (class_name s) r2).
  { destruct U as [U|(c & u & -> & N & L1 & L2)]; [|cbn; congruence].
    apply S. apply U. destruct s. constructor. }
  rewrite L. reflexivity.
Qed.
Lemma usable_fields : forall r1 r2 s, usable r1 r2 s -> user_fields (spec_fields s).
Proof.
  intros r1 r2 s [U|(c & u & -> & _)].
  - intros c (name & v & x & I & V & C). apply U. destruct s as [k [m|]]; [|contradiction].
    exact (sc_deep k m name v x c I V C).
  - intros d (name & v & x & [] & _).
Qed.

Notation decode_block := (decode_block E zero hook).
Lemma decode_block_rel : forall dec dat limit s r1 r2 b, dec_rel dec -> linked r1 r2 -> usable r1 r2 s ->
  outcome_rel r1 r2 (decode_block dec dat limit s r1 b) (decode_block dec dat limit s r2 b).
Proof.
  intros dec dat limit s r1 r2 b D K U. unfold StructModel.decode_block.
  rewrite <- (class_object_rel r1 r2 s K U).
  pose proof (both_refl r1 r2 K) as R.
  destruct (class_object E zero r1 (class_name s)) as [[t v]| |]; try (split; [reflexivity|exact R]).
  destruct (too_many_labels limit b); [split; [reflexivity|exact R]|].
  destruct (hook t) as [h|].
  - destruct (h (block_bytes dat b) (b_labels b) v) as [x [[]| |]]; split; try reflexivity; exact R.
  - pose proof (D s (b_labels b) t v (block_bytes dat b) r1 r2 K (usable_fields _ _ _ U)) as (T1 & T2 & T3).
    destruct (dec s r1 (b_labels b) t v (block_bytes dat b)) as [[x1 a1] o1],
      (dec s r2 (b_labels b) t v (block_bytes dat b)) as [[x2 a2] o2]. cbn [fst snd] in *. subst x2 o2.
    destruct o1 as [[]| |]; split; try reflexivity; exact T3.
Qed.

Ltac next_rel D K Hu :=
  match goal with
  | |- context [decode_block ?dec ?dat ?limit ?s ?r1 ?b] =>
    match goal with
    | |- outcome_rel r1 ?r2 _ _ =>
      let T1 := fresh "T" in let T2 := fresh "B" in
      pose proof (decode_block_rel dec dat limit s r1 r2 b D K Hu) as (T1 & T2);
      destruct (decode_block dec dat limit s r1 b) as [?a1 [[?t ?v]| |]],
        (decode_block dec dat limit s r2 b) as [?a2 [[?t ?v]| |]];
      cbn [fst snd] in T1, T2; try discriminate
    end
  end.

Lemma first_value_In : forall K V (m : list (K * V)) v, first_value m = Some v -> exists k, In (k, v) m.
Proof. intros K V [|[k v'] m] v H; [discriminate|]. injection H as ->. exists k. left. reflexivity. Qed.
Lemma map2_class_struct : forall m b s, map2_class m b = Some s -> value_struct (VMap2 m) s.
Proof.
  intros m b s H. unfold map2_class in H.
  assert (In2 : forall ms, (exists k, In (k, ms) m) -> forall k s, lookup k ms = Some s -> value_struct (VMap2 m) s).
  { intros ms (k1 & I1) k x L. apply lookup_In in L. exact (vs_map2 m k1 k ms x I1 L). }
  assert (First : match first_value m with Some ms => first_value ms | None => None end = Some s ->
    value_struct (VMap2 m) s).
  { intro F. destruct (first_value m) as [ms|] eqn:M; [|discriminate].
    destruct (first_value_In _ _ _ _ M) as (k1 & I1), (first_value_In _ _ _ _ F) as (k2 & I2).
    exact (vs_map2 m k1 k2 ms s I1 I2). }
  destruct (lookup (label0 b) m) as [ms|] eqn:L0.
  - destruct (lookup (label1 b) ms) as [x|] eqn:L1; [|exact (First H)]. injection H as ->.
    apply lookup_In in L0. exact (In2 ms (ex_intro (fun k => In (k, ms) m) _ L0) _ _ L1).
  - destruct (first_value m) as [ms|] eqn:M; [|discriminate].
    destruct (lookup (label1 b) ms) as [x|] eqn:L1; [|exact (First H)]. injection H as ->.
    exact (In2 ms (first_value_In _ _ _ _ M) _ _ L1).
Qed.
Lemma map_class_struct : forall m k s, map_class m k = Some s -> value_struct (VMap m) s.
Proof.
  intros m k s H. unfold map_class in H. destruct (lookup k m) eqn:L.
  - injection H as ->. apply lookup_In in L. exact (vs_map m k s L).
  - destruct (first_value_In _ _ _ _ H) as (k' & I). exact (vs_map m k' s I).
Qed.

Definition all_usable (r1 r2 : hrefmap) (v : svalue) : Prop := forall s, value_struct v s -> usable r1 r2 s.

Section Dec.
Variable dec : decoder.
Hypothesis D : dec_rel dec.

Lemma map2_loop_rel : forall dat kt et m bs acc r1 r2, linked r1 r2 -> all_usable r1 r2 (VMap2 m) ->
  outcome_rel r1 r2 (map2_loop E zero assignable hook dec dat kt et m bs acc r1)
                    (map2_loop E zero assignable hook dec dat kt et m bs acc r2).
Proof.
  intros dat kt et m. induction bs as [|b bs IH]; intros acc r1 r2 K U.
  { split; [reflexivity|exact (both_refl _ _ K)]. }
  cbn [map2_loop StructModel.map2_loop].
  destruct (map2_class m b) as [s|] eqn:C; [|split; [reflexivity|exact (both_refl _ _ K)]].
  pose proof (U s (map2_class_struct _ _ _ C)) as Us. next_rel D K Us.
  - injection T as <- <-. destruct (stored E et t v) as [xt x].
    destruct (assignable pair_type kt && assignable xt et); [|split; [reflexivity|exact B]].
    destruct (IH (insert (map2_key b (own_labels E t v)) x acc) a1 a2 (both_linked _ _ _ _ K B)) as (R1 & R2).
    + intros s' V. exact (usable_grows _ _ _ _ _ B (U s' V)).
    + split; [exact R1|exact (both_trans _ _ _ _ _ _ B R2)].
  - split; [cbn; congruence|exact B].
  - split; [cbn; congruence|exact B].
Qed.

Lemma map_loop_rel : forall dat kt et m bs acc r1 r2, linked r1 r2 -> all_usable r1 r2 (VMap m) ->
  outcome_rel r1 r2 (map_loop E zero assignable hook dec dat kt et m bs acc r1)
                    (map_loop E zero assignable hook dec dat kt et m bs acc r2).
Proof.
  intros dat kt et m. induction bs as [|b bs IH]; intros acc r1 r2 K U.
  { split; [reflexivity|exact (both_refl _ _ K)]. }
  cbn [map_loop StructModel.map_loop].
  destruct (b_labels b) as [|key ls] eqn:Lb; [split; [reflexivity|exact (both_refl _ _ K)]|].
  destruct (map_class m key) as [s|] eqn:C; [|split; [reflexivity|exact (both_refl _ _ K)]].
  pose proof (U s (map_class_struct _ _ _ C)) as Us. next_rel D K Us.
  - injection T as <- <-. destruct (stored E et t v) as [xt x].
    destruct (assignable string_type kt && assignable xt et); [|split; [reflexivity|exact B]].
    destruct (IH (insert key x acc) a1 a2 (both_linked _ _ _ _ K B)) as (R1 & R2).
    + intros s' V. exact (usable_grows _ _ _ _ _ B (U s' V)).
    + split; [exact R1|exact (both_trans _ _ _ _ _ _ B R2)].
  - split; [cbn; congruence|exact B].
  - split; [cbn; congruence|exact B].
Qed.

Lemma listmap_loop_rel : forall dat kt et first bs acc r1 r2, linked r1 r2 -> usable r1 r2 first ->
  outcome_rel r1 r2 (listmap_loop E zero assignable hook dec dat kt et first bs acc r1)
                    (listmap_loop E zero assignable hook dec dat kt et first bs acc r2).
Proof.
  intros dat kt et first. induction bs as [|b bs IH]; intros acc r1 r2 K U.
  { split; [reflexivity|exact (both_refl _ _ K)]. }
  cbn [listmap_loop StructModel.listmap_loop]. next_rel D K U.
  - injection T as <- <-.
    destruct (b_labels b) as [|key ls] eqn:Lb; [split; [reflexivity|exact B]|].
    destruct (stored E et t v) as [xt x].
    destruct (assignable string_type kt && assignable xt et); [|split; [reflexivity|exact B]].
    destruct (IH (insert key x acc) a1 a2 (both_linked _ _ _ _ K B) (usable_grows _ _ _ _ _ B U)) as (R1 & R2).
    split; [exact R1|exact (both_trans _ _ _ _ _ _ B R2)].
  - split; [cbn; congruence|exact B].
  - split; [cbn; congruence|exact B].
Qed.

Lemma nth_or_first_In : forall A (l : list A) first k, In first l -> In (nth_or_first l first k) l.
Proof.
  intros A l first k I. unfold nth_or_first. destruct (nth_error l k) eqn:N; [exact (nth_error_In _ _ N)|exact I].
Qed.
Lemma list_loop_rel : forall dat et specs first bs k r1 r2, linked r1 r2 -> In first specs ->
  all_usable r1 r2 (VList specs) ->
  outcome_rel r1 r2 (list_loop E zero assignable hook dec dat et specs first k bs r1)
                    (list_loop E zero assignable hook dec dat et specs first k bs r2).
Proof.
  intros dat et specs first. induction bs as [|b bs IH]; intros k r1 r2 K F U.
  { split; [reflexivity|exact (both_refl _ _ K)]. }
  cbn [list_loop StructModel.list_loop].
  pose proof (U _ (vs_list specs _ (nth_or_first_In _ specs first k F))) as Us. next_rel D K Us.
  - injection T as <- <-. destruct (stored E et t v) as [xt x].
    destruct (assignable xt et); [|split; [reflexivity|exact B]].
    destruct (IH (S k) a1 a2 (both_linked _ _ _ _ K B) F) as (R1 & R2).
    + intros s' V. exact (usable_grows _ _ _ _ _ B (U s' V)).
    + destruct (list_loop E zero assignable hook dec dat et specs first (S k) bs a1) as [c1 [l1| |]],
        (list_loop E zero assignable hook dec dat et specs first (S k) bs a2) as [c2 [l2| |]];
        cbn [fst snd] in R1, R2; try discriminate;
        (split; [cbn; congruence|exact (both_trans _ _ _ _ _ _ B R2)]).
  - split; [cbn; congruence|exact B].
  - split; [cbn; congruence|exact B].
Qed.

Lemma mapped_rel : forall A (f : A -> gtype * hval) r1 r2 x1 x2, outcome_rel r1 r2 x1 x2 ->
  outcome_rel r1 r2 (mapped f x1) (mapped f x2).
Proof.
  intros A f r1 r2 [a1 o1] [a2 o2] (H & B). cbn [fst snd] in *. subst o2.
  destruct o1; (split; [reflexivity|exact B]).
Qed.

Lemma block_value_rel : forall dat t f v bs r1 r2, linked r1 r2 ->
  (forall x, v = Some x -> all_usable r1 r2 x) ->
  outcome_rel r1 r2 (block_value E depth zero assignable hook dec dat t f v bs r1)
                    (block_value E depth zero assignable hook dec dat t f v bs r2).
Proof.
  intros dat t f v bs r1 r2 K U. unfold block_value.
  assert (R : forall A (x : result A), outcome_rel r1 r2 (r1, x) (r2, x)).
  { intros A x. split; [reflexivity|exact (both_refl _ _ K)]. }
  destruct bs as [|b bs]; [apply R|]. destruct v as [v|]; [|apply R].
  specialize (U v eq_refl). destruct v as [s|l|m|m].
  - apply mapped_rel. apply decode_block_rel; [exact D|exact K|]. apply U. constructor.
  - destruct l as [|first l]; [apply R|].
    destruct (under E (ftype f)); try apply R; apply mapped_rel.
    + apply list_loop_rel; [exact K|left; reflexivity|exact U].
    + apply listmap_loop_rel; [exact K|]. apply U. constructor. left. reflexivity.
  - destruct (under E (ftype f)); try apply R; apply mapped_rel. apply map_loop_rel; assumption.
  - destruct (under E (ftype f)); try apply R; apply mapped_rel. apply map2_loop_rel; assumption.
Qed.

(* ----- sequences of assignments ----- *)

(* The two refs may grow further before the assignment runs. *)
Definition action_rel (r1 r2 : hrefmap) (a1 a2 : action) : Prop :=
  fst a1 = fst a2 /\ forall v b1 b2, both_grow r1 r2 b1 b2 -> linked b1 b2 ->
    outcome_rel b1 b2 (snd a1 v b1) (snd a2 v b2).

Lemma run_rel : forall r1 r2 t l1 l2 v, linked r1 r2 -> Forall2 (action_rel r1 r2) l1 l2 ->
  triple_rel r1 r2 (run E depth assignable t l1 v r1) (run E depth assignable t l2 v r2).
Proof.
  intros r1 r2 t l1 l2 v K F.
  assert (G : forall b1 b2 v, both_grow r1 r2 b1 b2 -> linked b1 b2 ->
    triple_rel b1 b2 (run E depth assignable t l1 v b1) (run E depth assignable t l2 v b2)).
  { clear v. induction F as [|x1 x2 l1 l2 NH F IH]; intros b1 b2 v G Kb.
    - split; [reflexivity|]. split; [reflexivity|exact (both_refl _ _ Kb)].
    - destruct x1 as [n1 f1], x2 as [n2 f2], NH as (N & H). cbn in N, H. subst n2. cbn [run StructModel.run]. destruct (H v b1 b2 G Kb) as (H1 & H2).
      destruct (f1 v b1) as [c1 [o1| |]], (f2 v b2) as [c2 [o2| |]]; cbn [fst snd] in H1, H2; try discriminate.
      + injection H1 as <-.
        assert (Next : forall v, triple_rel b1 b2 (run E depth assignable t l1 v c1) (run E depth assignable t l2 v c2)).
        { intro w. destruct (IH c1 c2 w (both_trans _ _ _ _ _ _ G H2) (both_linked _ _ _ _ Kb H2)) as (T1 & T2 & T3).
          split; [exact T1|]. split; [exact T2|exact (both_trans _ _ _ _ _ _ H2 T3)]. }
        destruct o1 as [[xt x]|]; [|apply Next].
        destruct (set_by_name E depth assignable t v n1 xt x); [apply Next| |];
          (split; [reflexivity|]; split; [reflexivity|exact H2]).
      + split; [reflexivity|]. split; [cbn; congruence|exact H2].
      + split; [reflexivity|]. split; [cbn; congruence|exact H2]. }
  apply G; [exact (both_refl _ _ K)|exact K].
Qed.

Lemma pure_rel : forall r1 r2 name f, (forall v b, fst (f v b) = b) ->
  (forall v b b', snd (f v b) = snd (f v b')) -> action_rel r1 r2 (name, f) (name, f).
Proof.
  intros r1 r2 name f P1 P2. split; [reflexivity|]. intros v b1 b2 G K. cbn [snd].
  split; [apply P2|]. rewrite !P1. exact (both_refl _ _ K).
Qed.
Lemma Forall2_same : forall A (R : A -> A -> Prop) l, (forall x, In x l -> R x x) -> Forall2 R l l.
Proof.
  intros A R. induction l as [|x l IH]; intro H; constructor; [apply H; left; reflexivity|].
  apply IH. intros y I. apply H. right. exact I.
Qed.

(* The assignments of one struct. *)
Lemma acts_rel : forall dat t labels fl fn fd fo m p raw r1 r2, level_ok r1 m -> level_ok r2 m ->
  let acts := (label_attr_actions p fl ++ label_arg_actions E depth t labels fl ++ plain_actions p fn raw
    ++ generic_actions E dat p fd ++ block_actions E depth zero assignable hook dec dat t m p fo)%list in
  Forall2 (action_rel r1 r2) acts acts.
Proof.
  intros dat t labels fl fn fd fo m p raw r1 r2 V1 V2 acts. unfold acts.
  apply Forall2_same. intros [name f] I. rewrite !in_app_iff in I.
  destruct I as [I|[I|[I|[I|I]]]].
  - unfold label_attr_actions in I. apply in_map_iff in I as (x & I & _). injection I as <- <-.
    apply pure_rel; reflexivity.
  - unfold label_arg_actions in I. destruct (Nat.eqb _ _); [|contradiction].
    apply in_map_iff in I as (x & I & _). injection I as <- <-. apply pure_rel; reflexivity.
  - unfold plain_actions in I. apply in_map_iff in I as (x & I & _). injection I as <- <-.
    apply pure_rel; reflexivity.
  - unfold generic_actions in I. apply in_map_iff in I as (x & I & _). injection I as <- <-.
    apply pure_rel; reflexivity.
  - unfold block_actions in I. apply in_map_iff in I as (x & I & _). injection I as <- <-.
    split; [reflexivity|]. intros w b1 b2 G Kb. cbn [snd]. apply block_value_rel; [exact Kb|].
    intros y Ly s V. apply (usable_grows _ _ _ _ _ G).
    destruct (V1 _ _ Ly) as [U|(s1 & u1 & N1 & Lk1 & X1)].
    + left. intros c C. exact (U s c V C).
    + destruct (V2 _ _ Ly) as [U|(s2 & u2 & N2 & Lk2 & X2)].
      * left. intros c C. exact (U s c V C).
      * right. pose proof (X1 _ V) as E1. pose proof (X2 _ V) as E2.
        assert (s1 = s2) by (unfold plain_struct in *; congruence). subst s2.
        rewrite (distinct _ _ _ N2 N1) in Lk2. exists s1, u1. auto.
Qed.

Lemma unmarshal_with_rel : forall m r1 r2 labels t v dat, linked r1 r2 -> user_fields m ->
  triple_rel r1 r2 (unmarshal_with E depth type_string zero assignable decode_attr hook dec m r1 labels t v dat)
                   (unmarshal_with E depth type_string zero assignable decode_attr hook dec m r2 labels t v dat).
Proof.
  intros m r1 r2 labels t v dat K UF. unfold unmarshal_with.
  assert (R : forall (o : result unit), triple_rel r1 r2 (v, r1, o) (v, r2, o)).
  { intro o. split; [reflexivity|]. split; [reflexivity|exact (both_refl _ _ K)]. }
  destruct (under E t) as [| | | | |fs| |]; try apply R.
  destruct (do its <- parse_file dat; do attrs <- file_attrs its; Ok (its, attrs)) as [[its attrs]| |]; try apply R.
  set (nulls := map a_name (filter (fun a => is_null (a_value a)) attrs)).
  assert (LV : forall r, level_ok r m).
  { intros r k x L. left. intros s c V C. apply UF. exists k, x, s. apply lookup_In in L. auto. }
  destruct K as (O1 & O2 & S).
  pose proof (loop_fields_rel depth nulls fs m r1 r2 O1 O2 (LV r1) (LV r2)) as H.
  destruct (loop_fields depth nulls fs m r1) as [L1| |], (loop_fields depth nulls fs m r2) as [L2| |];
    try contradiction; try (cbn in H; subst; apply R).
  destruct H as (A1 & A2 & A3 & A4 & A5 & G1 & G2 & K1 & K2 & V1 & V2).
  assert (BG : both_grow r1 r2 (l_ref L1) (l_ref L2)) by (repeat split; try assumption; apply G1 || apply G2).
  assert (K' : linked (l_ref L1) (l_ref L2)) by (apply (both_linked r1 r2); [split; auto|exact BG]).
  assert (SA : forall a, split_attrs dat nulls L1 a = split_attrs dat nulls L2 a).
  { induction a as [|a l IH]; [reflexivity|]. cbn [split_attrs]. rewrite IH, A1, A3, A4. reflexivity. }
  assert (SB : split_body dat nulls L1 attrs (file_blocks its) = split_body dat nulls L2 attrs (file_blocks its)).
  { unfold split_body. rewrite SA, A3, A4. reflexivity. }
  rewrite <- SB, <- A2.
  destruct (do p <- split_body dat nulls L1 attrs (file_blocks its);
            do raw <- gohcl_decode zero decode_attr (l_new L1) (p_plain p) (p_rest p); Ok (p, raw)) as [[p raw]| |];
    try (split; [reflexivity|]; split; [reflexivity|exact BG]).
  assert (T : triple_rel (l_ref L1) (l_ref L2)
    (run E depth assignable t (label_attr_actions p (l_labels L1) ++ label_arg_actions E depth t labels (l_labels L1)
       ++ plain_actions p (l_new L1) raw ++ generic_actions E dat p (l_dec L1)
       ++ block_actions E depth zero assignable hook dec dat t (l_map L1) p (l_ori L1))%list v (l_ref L1))
    (run E depth assignable t (label_attr_actions p (l_labels L2) ++ label_arg_actions E depth t labels (l_labels L2)
       ++ plain_actions p (l_new L1) raw ++ generic_actions E dat p (l_dec L2)
       ++ block_actions E depth zero assignable hook dec dat t (l_map L2) p (l_ori L2))%list v (l_ref L2))).
  { apply run_rel; [exact K'|]. rewrite <- A1, <- A3, <- A4, <- A5. rewrite <- A5 in V2.
    apply acts_rel; assumption. }
  destruct T as (T1 & T2 & T3). split; [exact T1|]. split; [exact T2|exact (both_trans _ _ _ _ _ _ BG T3)].
Qed.
End Dec.

Theorem unmarshal_tree_rel : forall n,
  dec_rel (unmarshal_tree E depth type_string zero assignable decode_attr hook n).
Proof.
  induction n as [|n IH]; intros s labels t v dat r1 r2 K U; cbn [unmarshal_tree].
  - split; [reflexivity|]. split; [reflexivity|exact (both_refl _ _ K)].
  - apply unmarshal_with_rel; assumption.
Qed.

End Ref.
