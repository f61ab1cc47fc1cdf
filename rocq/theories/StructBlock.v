(* What decoding into a struct leaves in the fields that blocks set (C31, C57). *)

From Verif Require Import Base GoType SpecModel CollectModel DetModel CtyModel HclModel TagModel
  TagSpec TagProofs StructModel StructScan StructParse StructSpec StructFields StructRun StructRef StructFuel StructResult StructSplit HclDecode.
From Coq Require Import Lia.

(* A slice of a text is a part of it. *)
Lemma substring_part : forall s a n, exists pre post, s = pre +++ substring a n s +++ post.
Proof.
  induction s as [|c s IH]; intros a n.
  - exists "", "". destruct a, n; reflexivity.
  - destruct a as [|a].
    + destruct n as [|n]; [exists "", (String c s); reflexivity|].
      destruct (IH 0 n) as (pre & post & H). exists "".
      assert (P : exists post, s = substring 0 n s +++ post).
      { clear. revert n. induction s as [|c s IH]; intros [|n]; try (eexists; reflexivity).
        destruct (IH n) as (post & H). exists post. cbn. f_equal. exact H. }
      destruct P as (post' & P). exists post'. cbn. f_equal. exact P.
    + destruct (IH a n) as (pre & post & H). exists (String c pre), post. cbn. f_equal. exact H.
Qed.

Lemma Forall2_prefix : forall A (R : A -> A -> Prop) a b, Forall2 R (a ++ b) (a ++ b) -> Forall2 R a a.
Proof. intros A R. induction a as [|x a IH]; intros b H; inversion H; subst; constructor; eauto. Qed.

Section Block.
Variable E : env.
Variable depth : nat.
Variable type_string : gtype -> string.
Variable zero : gtype -> hval.
Variable assignable : gtype -> gtype -> bool.
Variable decode_attr : gtype -> cval -> result hval.
Variable hook : gtype -> option (string -> list string -> hval -> hval * result unit).
Hypothesis distinct : distinct_names E type_string.

Notation unmarshal_spec := (unmarshal_spec E depth type_string zero assignable decode_attr hook).
Notation unmarshal_with := (unmarshal_with E depth type_string zero assignable decode_attr hook).
Notation find_field := (find_field E depth).
Notation user_class := (user_class E type_string).
Notation ref_ok := (ref_ok E type_string zero).
Notation grows := (grows E type_string zero).
Notation linked := (linked E type_string zero).
Notation both_grow := (both_grow E type_string zero).
Notation usable := (usable E type_string zero).
Notation level_ok := (level_ok E type_string zero).

(* The decoder calls itself for the blocks. *)
Definition self : decoder := fun s => unmarshal_spec (Some s).
Definition fields_of (spec : option sstruct) : list (string * svalue) :=
  match spec with Some s => spec_fields s | None => [] end.
Theorem unmarshal_eq : forall spec ref labels t v dat,
  unmarshal_spec spec ref labels t v dat = unmarshal_with self (fields_of spec) ref labels t v dat.
Proof.
  intros spec ref labels t v dat. unfold StructModel.unmarshal_spec at 1. cbn [unmarshal_tree].
  replace (spec_fields match spec with Some s => s | None => SStruct "" None end) with (fields_of spec)
    by (destruct spec as [[c [m|]]|]; reflexivity).
  apply unmarshal_with_same. intros s r ls t' v' x Lx. unfold self, StructModel.unmarshal_spec.
  apply unmarshal_fuel; lia.
Qed.
Lemma self_rel : dec_rel E type_string zero self.
Proof.
  intros s labels t v dat r1 r2 K U. unfold self, StructModel.unmarshal_spec.
  apply unmarshal_tree_rel; assumption.
Qed.

(* ----- one block ----- *)

(* The value of a block with the text, under the struct s of the spec: what UnmarshalSpec
   (or the type's own method) makes of the text alone, from a copy of the class's object. *)
Inductive block_gives (ref : hrefmap) (s : sstruct) (ls : list string) (text : string) : gtype -> hval -> Prop :=
| bg_decoded ct cv x ref' : lookup (class_name s) ref = Some (RObj ct cv) -> hook ct = None ->
    unmarshal_spec (Some s) ref ls ct (clone_value zero ct cv) text = (x, ref', Ok tt) ->
    block_gives ref s ls text ct x
| bg_hook ct cv h x u : lookup (class_name s) ref = Some (RObj ct cv) -> hook ct = Some h ->
    h text ls (clone_value zero ct cv) = (x, Ok u) -> block_gives ref s ls text ct x.

Lemma decode_block_gives : forall dat limit s r0 r1 b r2 ct x, linked r0 r1 -> usable r0 r1 s ->
  decode_block E zero hook self dat limit s r1 b = (r2, Ok (ct, x)) ->
  block_gives r0 s (b_labels b) (block_bytes dat b) ct x /\ both_grow r0 r1 r0 r2
  /\ too_many_labels limit b = false.
Proof.
  intros dat limit s r0 r1 b r2 ct x K U H. unfold decode_block in H.
  rewrite <- (class_object_rel E type_string zero r0 r1 s K U) in H.
  pose proof (both_refl E type_string zero r0 r1 K) as BR.
  unfold class_object in H. destruct (lookup (class_name s) r0) as [[ct' cv| |]|] eqn:L; try discriminate.
  destruct (under E ct') eqn:Uc; try discriminate.
  destruct (too_many_labels limit b) eqn:TM; [discriminate|].
  destruct (hook ct') as [h|] eqn:Hk.
  - destruct (h (block_bytes dat b) (b_labels b) (clone_value zero ct' cv)) as [y [[]| |]] eqn:Hh; try discriminate.
    injection H as <- <- <-. split; [eapply bg_hook; eassumption|]. split; [exact BR|reflexivity].
  - pose proof (self_rel s (b_labels b) ct' (clone_value zero ct' cv) (block_bytes dat b) r0 r1 K
      (usable_fields _ _ _ _ _ _ U)) as (T1 & T2 & T3).
    destruct (self s r1 (b_labels b) ct' (clone_value zero ct' cv) (block_bytes dat b)) as [[y r'] [[]| |]] eqn:R;
      try discriminate. injection H as <- <- <-. cbn [fst snd] in *.
    destruct (self s r0 (b_labels b) ct' (clone_value zero ct' cv) (block_bytes dat b)) as [[y0 r0'] o0] eqn:R0.
    cbn [fst snd] in *. subst y0 o0. split; [eapply bg_decoded; eassumption|]. split; [|reflexivity].
    destruct T3 as (G1 & G2 & O1 & O2). destruct BR as (B1 & _ & B3 & _). repeat split; try apply B1; try apply G2; assumption.
Qed.

Lemma linked_step : forall r0 r1 r2, linked r0 r1 -> both_grow r0 r1 r0 r2 -> linked r0 r2.
Proof. intros r0 r1 r2 K B. exact (both_linked _ _ _ _ _ _ _ K B). Qed.

(* ----- list specs ----- *)

Definition usable_all (r0 r1 : hrefmap) (v : svalue) : Prop := all_usable E type_string zero r0 r1 v.

Lemma usable_all_step : forall r0 r1 r2 v, both_grow r0 r1 r0 r2 -> usable_all r0 r1 v -> usable_all r0 r2 v.
Proof. intros r0 r1 r2 v B U s V. exact (usable_grows _ _ _ _ _ _ _ _ B (U s V)). Qed.

Lemma list_loop_gives : forall dat et specs first bs k r0 r1 r2 xs, linked r0 r1 -> In first specs ->
  usable_all r0 r1 (VList specs) ->
  list_loop E zero assignable hook self dat et specs first k bs r1 = (r2, Ok xs) ->
  List.length xs = List.length bs /\ both_grow r0 r1 r0 r2 /\
  forall i b, nth_error bs i = Some b -> exists ct y,
    block_gives r0 (nth_or_first specs first (k + i)) (b_labels b) (block_bytes dat b) ct y /\
    nth_error xs i = Some (snd (stored E et ct y)).
Proof.
  intros dat et specs first. induction bs as [|b bs IH]; intros k r0 r1 r2 xs K F U H.
  - injection H as <- <-. split; [reflexivity|]. split; [exact (both_refl _ _ _ _ _ K)|].
    intros [|i] b Hb; discriminate.
  - cbn [list_loop] in H.
    destruct (decode_block E zero hook self dat None (nth_or_first specs first k) r1 b) as [r' [[ct y]| |]] eqn:D;
      try discriminate.
    assert (Us : usable r0 r1 (nth_or_first specs first k)).
    { apply U. constructor. apply nth_or_first_In. exact F. }
    destruct (decode_block_gives _ _ _ _ _ _ _ _ _ K Us D) as (G & B & _).
    destruct (stored E et ct y) as [xt x] eqn:S. destruct (assignable xt et); [|discriminate].
    destruct (list_loop E zero assignable hook self dat et specs first (Datatypes.S k) bs r') as [r3 [l| |]] eqn:R;
      try discriminate. injection H as <- <-.
    destruct (IH _ r0 r' r3 l (linked_step _ _ _ K B) F (usable_all_step _ _ _ _ B U) R) as (I1 & I2 & I3).
    split; [cbn; f_equal; exact I1|]. split.
    + destruct B as (B1 & B2 & B3 & B4), I2 as (J1 & J2 & J3 & J4).
      split; [exact B1|]. split; [exact (grows_trans _ _ _ _ _ _ B2 J2)|]. split; assumption.
    + intros [|i] b' Hb; cbn in Hb.
      * injection Hb as <-. exists ct, y. rewrite Nat.add_0_r. split; [exact G|]. rewrite S. reflexivity.
      * replace (k + Datatypes.S i) with (Datatypes.S k + i) by lia. exact (I3 i b' Hb).
Qed.

(* ----- map specs ----- *)

(* The last block with a key wins. *)
Fixpoint last_with (p : hblock -> bool) (bs : list hblock) : option hblock :=
  match bs with
  | [] => None
  | b :: r => match last_with p r with Some x => Some x | None => if p b then Some b else None end
  end.
Definition keyed (k : string) (b : hblock) : bool :=
  match b_labels b with l :: _ => String.eqb l k | [] => false end.

Lemma map_loop_gives : forall dat kt et m bs acc r0 r1 r2 xs, linked r0 r1 -> usable_all r0 r1 (VMap m) ->
  map_loop E zero assignable hook self dat kt et m bs acc r1 = (r2, Ok xs) ->
  (forall b, In b bs -> exists l, b_labels b = [l]) /\ both_grow r0 r1 r0 r2 /\
  forall k, match last_with (keyed k) bs with
            | Some b => exists s ct y, map_class m k = Some s /\
                block_gives r0 s (b_labels b) (block_bytes dat b) ct y /\ lookup k xs = Some (snd (stored E et ct y))
            | None => lookup k xs = lookup k acc
            end.
Proof.
  intros dat kt et m. induction bs as [|b bs IH]; intros acc r0 r1 r2 xs K U H.
  - injection H as <- <-. split; [intros b []|]. split; [exact (both_refl _ _ _ _ _ K)|]. intro k. reflexivity.
  - cbn [map_loop] in H. destruct (b_labels b) as [|key ls] eqn:Lb; [discriminate|].
    destruct (map_class m key) as [s|] eqn:MC; [|discriminate].
    destruct (decode_block E zero hook self dat (Some 1) s r1 b) as [r' [[ct y]| |]] eqn:D; try discriminate.
    assert (Us : usable r0 r1 s) by (apply U; exact (map_class_struct _ _ _ MC)).
    destruct (decode_block_gives _ _ _ _ _ _ _ _ _ K Us D) as (G & B & TM).
    destruct (stored E et ct y) as [xt x] eqn:S. destruct (_ && _); [|discriminate].
    destruct (IH _ r0 r' r2 xs (linked_step _ _ _ K B) (usable_all_step _ _ _ _ B U) H) as (I1 & I2 & I3).
    split; [|split].
    + intros b' [<-|I]; [|exact (I1 b' I)]. unfold too_many_labels in TM. rewrite Lb in TM. cbn in TM.
      destruct ls; [eauto|]. discriminate.
    + destruct B as (B1 & B2 & B3 & B4), I2 as (J1 & J2 & J3 & J4).
      split; [exact B1|]. split; [exact (grows_trans _ _ _ _ _ _ B2 J2)|]. split; assumption.
    + intro k. specialize (I3 k). cbn [last_with]. destruct (last_with (keyed k) bs); [exact I3|].
      unfold keyed. rewrite Lb. destruct (String.eqb_spec key k) as [->|NE].
      * exists s, ct, y. split; [exact MC|]. split; [exact G|]. rewrite I3, lookup_insert_eq, S. reflexivity.
      * rewrite I3. apply lookup_insert_ne. congruence.
Qed.

Lemma listmap_loop_gives : forall dat kt et first bs acc r0 r1 r2 xs, linked r0 r1 -> usable r0 r1 first ->
  listmap_loop E zero assignable hook self dat kt et first bs acc r1 = (r2, Ok xs) ->
  (forall b, In b bs -> b_labels b <> []) /\ both_grow r0 r1 r0 r2 /\
  forall k, match last_with (keyed k) bs with
            | Some b => exists ct y, block_gives r0 first (b_labels b) (block_bytes dat b) ct y
                /\ lookup k xs = Some (snd (stored E et ct y))
            | None => lookup k xs = lookup k acc
            end.
Proof.
  intros dat kt et first. induction bs as [|b bs IH]; intros acc r0 r1 r2 xs K U H.
  - injection H as <- <-. split; [intros b []|]. split; [exact (both_refl _ _ _ _ _ K)|]. intro k. reflexivity.
  - cbn [listmap_loop] in H.
    destruct (decode_block E zero hook self dat None first r1 b) as [r' [[ct y]| |]] eqn:D; try discriminate.
    destruct (decode_block_gives _ _ _ _ _ _ _ _ _ K U D) as (G & B & TM).
    destruct (b_labels b) as [|key ls] eqn:Lb; [discriminate|].
    destruct (stored E et ct y) as [xt x] eqn:S. destruct (_ && _); [|discriminate].
    destruct (IH _ r0 r' r2 xs (linked_step _ _ _ K B) (usable_grows _ _ _ _ _ _ _ _ B U) H) as (I1 & I2 & I3).
    split; [|split].
    + intros b' [<-|I]; [congruence|exact (I1 b' I)].
    + destruct B as (B1 & B2 & B3 & B4), I2 as (J1 & J2 & J3 & J4).
      split; [exact B1|]. split; [exact (grows_trans _ _ _ _ _ _ B2 J2)|]. split; assumption.
    + intro k. specialize (I3 k). cbn [last_with]. destruct (last_with (keyed k) bs); [exact I3|].
      unfold keyed. rewrite Lb. destruct (String.eqb_spec key k) as [->|NE].
      * exists ct, y. split; [rewrite Lb; exact G|]. rewrite I3, lookup_insert_eq, S. reflexivity.
      * rewrite I3. apply lookup_insert_ne. congruence.
Qed.

(* Labels that a block does not have are taken from the label fields of its struct. *)
Inductive pair_key_of (ls : list string) (own : string * string) : string * string -> Prop :=
| pk_own : match ls with [] => True | a :: _ => a = "" end -> pair_key_of ls own own
| pk_both a b r : ls = a :: b :: r -> a <> "" -> b <> "" -> pair_key_of ls own (a, b)
| pk_second a r : ls = a :: r -> a <> "" -> match r with [] => True | b :: _ => b = "" end -> snd own <> "" ->
    pair_key_of ls own (a, snd own)
| pk_first a r : ls = a :: r -> a <> "" -> match r with [] => True | b :: _ => b = "" end -> snd own = "" ->
    pair_key_of ls own (a, fst own).
Lemma map2_key_of : forall b own, pair_key_of (b_labels b) own (map2_key b own).
Proof.
  intros b own. unfold map2_key, label0, label1. destruct (b_labels b) as [|a r]; [cbn; constructor; exact I|].
  destruct (String.eqb_spec a "") as [->|Na]; [constructor; reflexivity|].
  destruct r as [|c r].
  - cbn [String.eqb]. destruct (String.eqb_spec (snd own) "") as [Z|Z]; cbn [negb].
    + eapply pk_first; [reflexivity|exact Na|try exact I; reflexivity|exact Z].
    + eapply pk_second; [reflexivity|exact Na|try exact I; reflexivity|exact Z].
  - destruct (String.eqb_spec c "") as [->|Nc]; [|eapply pk_both; eauto].
    destruct (String.eqb_spec (snd own) "") as [Z|Z]; cbn [negb].
    + eapply pk_first; [reflexivity|exact Na|try exact I; reflexivity|exact Z].
    + eapply pk_second; [reflexivity|exact Na|try exact I; reflexivity|exact Z].
Qed.

Lemma map2_loop_gives : forall dat kt et m bs acc r0 r1 r2 xs, linked r0 r1 -> usable_all r0 r1 (VMap2 m) ->
  map2_loop E zero assignable hook self dat kt et m bs acc r1 = (r2, Ok xs) ->
  exists es, Forall2 (fun b (e : (string * string) * (gtype * hval)) => List.length (b_labels b) <= 2 /\
      pair_key_of (b_labels b) (own_labels E (fst (snd e)) (snd (snd e))) (fst e) /\
      exists s, map2_class m b = Some s /\
        block_gives r0 s (b_labels b) (block_bytes dat b) (fst (snd e)) (snd (snd e))) bs es /\
    forall k, lookup k xs = match lookup k (rev es) with
                            | Some (ct, y) => Some (snd (stored E et ct y))
                            | None => lookup k acc
                            end.
Proof.
  intros dat kt et m. induction bs as [|b bs IH]; intros acc r0 r1 r2 xs K U H.
  - injection H as <- <-. exists []. split; [constructor|]. intro k. reflexivity.
  - cbn [map2_loop] in H.
    destruct (map2_class m b) as [s|] eqn:MC; [|discriminate].
    destruct (decode_block E zero hook self dat (Some 2) s r1 b) as [r' [[ct y]| |]] eqn:D; try discriminate.
    assert (Us : usable r0 r1 s) by (apply U; exact (map2_class_struct _ _ _ MC)).
    destruct (decode_block_gives _ _ _ _ _ _ _ _ _ K Us D) as (G & B & TM).
    destruct (stored E et ct y) as [xt x] eqn:S. destruct (_ && _); [|discriminate].
    destruct (IH _ r0 r' r2 xs (linked_step _ _ _ K B) (usable_all_step _ _ _ _ B U) H) as (es & I1 & I2).
    exists ((map2_key b (own_labels E ct y), (ct, y)) :: es). split.
    + constructor; [cbn [fst snd]|exact I1]. split.
      { unfold too_many_labels in TM. apply Nat.ltb_ge in TM. exact TM. }
      split; [apply map2_key_of|]. exists s. split; [exact MC|exact G].
    + intro k. rewrite I2. cbn [rev]. rewrite lookup_app.
      destruct (lookup k (rev es)) as [[ct' y']|]; [reflexivity|].
      destruct (eq_dec k (map2_key b (own_labels E ct y))) as [->|NE].
      * rewrite lookup_insert_eq. cbn [lookup]. destruct (eq_dec _ _); [|contradiction]. rewrite S. reflexivity.
      * rewrite lookup_insert_ne by congruence. cbn [lookup]. destruct (eq_dec _ _); [contradiction|reflexivity].
Qed.

(* ----- the specs of the fields ----- *)

(* Entries of the spec are never replaced. *)
Lemma loop_fields_keep : forall n nulls fs m ref L, loop_fields E type_string zero n nulls fs m ref = Ok L ->
  forall k x, lookup k m = Some x -> lookup k (l_map L) = Some x.
Proof.
  induction n as [|n IHn]; intros nulls fs; [discriminate|].
  induction fs as [|f fs IH]; intros m ref L H k x Lk.
  - injection H as <-. exact Lk.
  - rewrite loop_fields_cons in H. apply bindr_Ok in H as (here & H1 & H).
    apply bindr_Ok in H as (rest & H2 & H). injection H as <-. cbn [join_lists l_map].
    apply (IH _ _ _ H2). unfold loop_field in H1.
    destruct (negb (is_exported (fname f))); [injection H1 as <-; exact Lk|].
    destruct (tag2 (ftag f)) as [[tag what]| |]; cbn [bindr] in H1; try discriminate.
    destruct (grep nulls tag); [injection H1 as <-; exact Lk|].
    destruct (String.eqb (to_lower what) "label"); [injection H1 as <-; exact Lk|].
    destruct (tag_skipped tag); [injection H1 as <-; exact Lk|].
    destruct (lookup (fname f) m) eqn:LF; [injection H1 as <-; exact Lk|].
    destruct (String.eqb tag "").
    { destruct (under E (elem_ptr E (ftype f))); try (injection H1 as <-; exact Lk). exact (IHn _ _ _ _ _ H1 _ _ Lk). }
    injection H1 as <-. assert (NE : fname f <> k) by congruence.
    assert (Ins : forall v, lookup k (insert (fname f) v m) = Some x).
    { intro v. rewrite lookup_insert_ne by congruence. exact Lk. }
    unfold tagged_field. destruct (under E (elem_ptr E (ftype f))) as [| |et| |kt et| | |]; try exact Lk; try apply Ins.
    + destruct (elem_class E et) as [u|[]]; try exact Lk. apply Ins.
    + destruct (elem_class E et) as [u|[]]; try exact Lk. apply Ins.
Qed.

(* The spec that a tag and a type make for a block field. *)
Definition auto_value (t : gtype) : option (gtype * svalue) :=
  match under E t with
  | TStruct _ => Some (t, VSingle (plain_struct (type_string t)))
  | TMap kt et =>
    match elem_class E et with
    | Registered u => Some (u, if pair_key E kt then VMap2 [("", [("", plain_struct (type_string et))])]
                               else VList [plain_struct (type_string et)])
    | Other _ => None
    end
  | TSlice et =>
    match elem_class E et with
    | Registered u => Some (u, VList [plain_struct (type_string et)])
    | Other _ => None
    end
  | _ => None
  end.
Lemma tagged_auto : forall f st m ref, points E (ftype f) st -> block_type E st ->
  exists u x, auto_value st = Some (u, x) /\
    lookup (fname f) (l_map (tagged_field E type_string zero f m ref)) = Some x.
Proof.
  intros f st m ref P Bt. unfold tagged_field. rewrite (points_elem _ _ _ P). unfold auto_value.
  destruct Bt as [(fs & ->)|(et & HE & X)].
  - do 2 eexists. split; [reflexivity|]. apply lookup_insert_eq.
  - assert (EC : exists u, elem_class E et = Registered u).
    { unfold elem_class. destruct X as [(gs & ->)|(u & ->)]; eauto. }
    destruct EC as (u & EC). destruct HE as [->|(kt & ->)]; rewrite EC; do 2 eexists;
      (split; [reflexivity|]); apply lookup_insert_eq.
Qed.

Lemma loop_fields_auto : forall nulls specs fs l, all_fields E nulls specs fs l ->
  forall n m ref L, keys_agree specs l m -> NoDup (field_names l) ->
  loop_fields E type_string zero n nulls fs m ref = Ok L ->
  forall f, In (f, Block) l -> ~ In (fname f) specs -> exists st u x,
    points E (ftype f) st /\ block_type E st /\ auto_value st = Some (u, x) /\ lookup (fname f) (l_map L) = Some x.
Proof.
  induction 1 as [|f fs l X H IH|f c fs l X C NI H IH|f t gs fs l l' X C P U H1 IH1 H2 IH2];
    intros n m ref L KA ND R g I NS; (destruct n as [|n]; [discriminate|]).
  - contradiction.
  - rewrite loop_fields_cons in R. unfold loop_field in R. rewrite X in R. cbn [negb bindr no_fields l_map l_ref] in R.
    apply bindr_Ok in R as (rest & R & EQ). injection EQ as <-. cbn [join_lists l_map].
    exact (IH _ _ _ _ KA ND R g I NS).
  - cbn in ND. inversion ND as [|? ? NIn ND']; subst. rewrite loop_fields_cons in R.
    destruct (loop_field_class E type_string zero n nulls specs f c m ref X C NI (KA f c (or_introl eq_refl)))
      as (L1 & RL & D & G).
    rewrite RL in R. cbn [bindr] in R. apply bindr_Ok in R as (rest & R & EQ). injection EQ as <-. cbn [join_lists l_map].
    destruct I as [I|I].
    + injection I as <- ->.
      inversion C as [| | |tag kind T N Lb Dh S|tag kind st T N Lb Dh S Em Pt Bt| | | |]; subst; [contradiction|].
      destruct (tagged_auto f st m ref Pt Bt) as (u & x & Av & Lk).
      exists st, u, x. split; [exact Pt|]. split; [exact Bt|]. split; [exact Av|].
      apply (loop_fields_keep _ _ _ _ _ _ R).
      unfold loop_field in RL. rewrite X in RL. cbn [negb] in RL. rewrite T in RL. cbn [bindr] in RL.
      apply grep_false in N. rewrite N in RL.
      destruct (String.eqb_spec (to_lower kind) "label") as [Lb'|_]; [contradiction|].
      rewrite (skipped_dash _ _ _ T) in RL.
      destruct (String.eqb_spec tag "-") as [D'|_]; [contradiction|].
      destruct (lookup (fname f) m) eqn:LE; [exfalso; apply S, (KA f Block (or_introl eq_refl)); congruence|].
      destruct (String.eqb_spec tag "") as [Em'|_]; [contradiction|]. injection RL as <-. exact Lk.
    + refine (IH _ _ _ _ _ ND' R g I NS).
      intros h d J. rewrite (KA h d (or_intror J)). destruct (G (fname h)) as [->|(-> & F)]; [tauto|].
      exfalso. apply NIn. rewrite F. exact (name_In _ _ _ J).
  - cbn in ND. inversion ND as [|? ? NIn ND']; subst. unfold field_names in ND'. rewrite map_app in ND'.
    rewrite loop_fields_cons in R. apply bindr_Ok in R as (here & RL & R).
    apply bindr_Ok in R as (rest & R & EQ). injection EQ as <-. cbn [join_lists l_map].
    assert (RL' : loop_fields E type_string zero n nulls gs m ref = Ok here).
    { pose proof (KA f Inlined (or_introl eq_refl)) as AF.
      inversion C as [| | | | | | |kind t' T N Lb S P' Bt|]; subst.
      unfold loop_field in RL. rewrite X, T in RL. cbn [negb bindr] in RL.
      apply grep_false in N. rewrite N in RL.
      destruct (String.eqb_spec (to_lower kind) "label") as [Lb'|_]; [contradiction|].
      rewrite (skipped_dash _ _ _ T) in RL. cbn in RL.
      destruct (lookup (fname f) m) eqn:LE; [exfalso; apply S, AF; congruence|].
      rewrite (points_elem _ _ _ P), U in RL. exact RL. }
    assert (A1 : keys_agree specs l m) by (intros h d J; apply (KA h d); right; apply in_or_app; auto).
    destruct (loop_fields_spec E type_string zero _ _ _ _ _ _ _ _ RL' H1 A1 (NoDup_app_l _ _ _ ND'))
      as (_ & _ & _ & _ & P5).
    destruct I as [I|I]; [discriminate|]. apply in_app_or in I as [I|I].
    + destruct (IH1 _ _ _ _ A1 (NoDup_app_l _ _ _ ND') RL' g I NS) as (st & u & x & Q1 & Q2 & Q3 & Q4).
      exists st, u, x. repeat (split; [assumption|]). exact (loop_fields_keep _ _ _ _ _ _ R _ _ Q4).
    + refine (IH2 _ _ _ _ _ (NoDup_app_r _ _ _ ND') R g I NS).
      intros h d J. rewrite (KA h d) by (right; apply in_or_app; auto).
      destruct (P5 (fname h)) as [->|(h' & K & F)]; [tauto|]. exfalso.
      apply (NoDup_app_disjoint _ _ _ ND' (fname h)); [rewrite <- F; exact (name_In _ _ _ K)|].
      exact (name_In _ _ _ J).
Qed.

(* ----- the blocks of a tag ----- *)

Definition tag_blocks (body : list item) (tag : string) : list (list string * list item) :=
  flat_map (fun i => match i with IBlock k ls b => if string_dec k tag then [(ls, b)] else [] | _ => [] end) body.
Definition block_text (dat : string) (hb : hblock) (lb : list string * list item) : Prop :=
  b_labels hb = fst lb /\ parse_config (block_bytes dat hb) = Ok (snd lb).

Lemma blocks_texts : forall dat its tag, parse_file dat = Ok its ->
  Forall2 (block_text dat) (blocks_of tag (file_blocks its)) (tag_blocks (map erase its) tag).
Proof.
  intros dat its tag P.
  assert (H : forall l, (forall i, In i l -> In i its) ->
    Forall2 (block_text dat) (blocks_of tag (file_blocks l)) (tag_blocks (map erase l) tag)).
  { induction l as [|[k e q z|k ls o c b] l IH]; intro I; [constructor| |].
    - apply IH. intros i J. apply I. right. exact J.
    - unfold tag_blocks. cbn [map erase flat_map file_blocks].
      unfold blocks_of. cbn [app filter b_type].
      assert (IHl := IH (fun i J => I i (or_intror J))).
      destruct (string_dec k tag) as [->|NE].
      + rewrite String.eqb_refl. constructor; [|exact IHl]. split; [reflexivity|]. cbn.
        apply (block_text_parses dat its tag ls o c b P). apply I. left. reflexivity.
      + destruct (String.eqb_spec k tag) as [E1|_]; [contradiction|]. exact IHl. }
  apply H. auto.
Qed.

Lemma blocks_of_filter : forall tag L bs, tag_in (l_ori L) tag = true ->
  blocks_of tag (filter (fun b => tag_in (l_ori L) (b_type b)) bs) = blocks_of tag bs.
Proof.
  intros tag L bs T. unfold blocks_of. induction bs as [|b bs IH]; [reflexivity|]. cbn [filter].
  destruct (String.eqb_spec (b_type b) tag) as [Eb|Nb].
  - rewrite Eb, T. cbn [filter]. rewrite Eb, String.eqb_refl, IH. reflexivity.
  - destruct (tag_in (l_ori L) (b_type b)); [|exact IH]. cbn [filter].
    destruct (String.eqb_spec (b_type b) tag); [contradiction|exact IH].
Qed.

Lemma attr_blocks_type : forall dat a bs b, attr_blocks dat a = Ok bs -> In b bs -> b_type b = a_name a /\ b_labels b = [].
Proof.
  intros dat a bs b H I. unfold attr_blocks in H. destruct (negb _); [discriminate|].
  destruct (Nat.ltb _ _); [discriminate|]. injection H as <-. apply in_map_iff in I as (se & <- & _). auto.
Qed.
Lemma attr_blocks_other : forall dat attrs bss tag,
  Forall2 (fun a bs => attr_blocks dat a = Ok bs) attrs bss -> ~ In tag (map a_name attrs) ->
  blocks_of tag (concat bss) = [].
Proof.
  intros dat attrs bss tag F. induction F as [|a bs attrs bss H F IH]; intro NI; [reflexivity|].
  cbn in NI. cbn [concat]. unfold blocks_of. rewrite filter_app.
  fold (blocks_of tag (concat bss)). rewrite IH by tauto. rewrite app_nil_r.
  assert (X : forall b, In b bs -> b_type b <> tag).
  { intros b I Eb. pose proof (attr_blocks_type _ _ _ _ H I) as (Y & _). apply NI. left. congruence. }
  clear -X. induction bs as [|b bs IH]; [reflexivity|]. cbn [filter].
  destruct (String.eqb_spec (b_type b) tag) as [Y|_]; [exfalso; apply (X b); [left; reflexivity|exact Y]|].
  apply IH. intros c I. apply X. right. exact I.
Qed.

(* The blocks of a name in a text, with their labels and bodies: first the objects of an
   attribute of that name, then the blocks. The text of the objects starts one character after
   the equals sign. *)
Inductive stands (dat : string) (body : list item) (tag : string) : list (list string * list item) -> Prop :=
| stands_blocks : (forall e, ~ In (IAttr tag e) body) -> stands dat body tag (tag_blocks body tag)
| stands_objects its e pre c text post texts objects : parse_file dat = Ok its ->
    In (PAttr tag e (String.length pre) (S (String.length pre + String.length text))) its ->
    dat = pre +++ String c (text +++ post) -> objects_text texts text ->
    Forall2 (fun x b => parse_config x = Ok b) texts objects ->
    stands dat body tag (map (fun b => ([], b)) objects ++ tag_blocks body tag).

Lemma blocks_all : forall tag bs, (forall b, In b bs -> b_type b = tag) -> blocks_of tag bs = bs.
Proof.
  intros tag. unfold blocks_of. induction bs as [|b bs IH]; intro H; [reflexivity|]. cbn [filter].
  rewrite (H b (or_introl eq_refl)), String.eqb_refl, IH; [reflexivity|]. intros c I. apply H. right. exact I.
Qed.
Lemma objects_texts : forall dat bs objects, Forall2 (fun x b => parse_config x = Ok b) (map (block_bytes dat) bs) objects ->
  (forall b, In b bs -> b_labels b = []) -> Forall2 (block_text dat) bs (map (fun b => ([], b)) objects).
Proof.
  intros dat. induction bs as [|b bs IH]; intros objects F H; inversion F; subst; constructor.
  - split; [apply H; left; reflexivity|assumption].
  - apply IH; [assumption|]. intros c I. apply H. right. exact I.
Qed.
(* The blocks made from one of the attributes. *)
Lemma attr_blocks_one : forall dat attrs bss a tag,
  Forall2 (fun a bs => attr_blocks dat a = Ok bs) attrs bss -> NoDup (map a_name attrs) -> In a attrs -> a_name a = tag ->
  exists bs, attr_blocks dat a = Ok bs /\ blocks_of tag (concat bss) = bs.
Proof.
  intros dat attrs bss a tag F. induction F as [|a' bs attrs bss H F IH]; intros D I Ea; [contradiction|].
  cbn in D. inversion D as [|? ? NI D']; subst. cbn [concat]. unfold blocks_of. rewrite filter_app.
  fold (blocks_of (a_name a) bs). fold (blocks_of (a_name a) (concat bss)).
  destruct I as [->|I].
  - rewrite (attr_blocks_other _ _ _ _ F NI), app_nil_r. exists bs. split; [exact H|].
    apply blocks_all. intros b J. apply (attr_blocks_type _ _ _ _ H J).
  - destruct (IH D' I eq_refl) as (bs' & H' & ->). exists bs'. split; [exact H'|].
    assert (X : blocks_of (a_name a) bs = []).
    { pose proof (attr_blocks_other dat [a'] [bs] (a_name a) (Forall2_cons _ _ H (Forall2_nil _))) as Y.
      cbn [concat map] in Y. rewrite app_nil_r in Y. apply Y. intros [Z|[]]. apply NI. rewrite Z.
      apply (in_map a_name). exact I. }
    rewrite X. reflexivity.
Qed.
Lemma NoDup_names_filter : forall (p : hattr -> bool) l, NoDup (map a_name l) -> NoDup (map a_name (filter p l)).
Proof.
  intros p. induction l as [|a l IH]; intro D; [constructor|]. cbn in D. inversion D as [|? ? NI D']; subst.
  cbn [filter]. destruct (p a); [|exact (IH D')]. cbn. constructor; [|exact (IH D')].
  intro I. apply NI. apply in_map_iff in I as (x & <- & I). apply filter_In in I as (I & _). apply in_map. exact I.
Qed.

Section One.
Variable spec : option sstruct.
Variables ref ref' : hrefmap.
Variable labels : list string.
Variable t : gtype.
Variables v v' : hval.
Variable dat : string.
Variable fs : list gfield.
Variable body : list item.
Variable nulls : list string.
Variable l : list (gfield * cls).
Hypothesis RO : ref_ok ref.
Hypothesis UF : user_fields E type_string (fields_of spec).
Hypothesis U : under E t = TStruct fs.
Hypothesis B : parse_config dat = Ok body.
Hypothesis N : forall k, In k nulls <-> null_in body k.
Hypothesis A : all_fields E nulls (keys (fields_of spec)) fs l.
Hypothesis ND : NoDup (field_names l).
Hypothesis NT : distinct_tags l.

(* The assignment of a block field. *)
Theorem block_field : forall f tag kind path ft lbs,
  unmarshal_spec spec ref labels t v dat = (v', ref', Ok tt) ->
  In (f, Block) l -> tag2 (ftag f) = Ok (tag, kind) -> find_field t (fname f) = Some (path, ft) ->
  stands dat body tag lbs ->
  exists L bs sv r1 r2 o,
    (exists ns, loop_fields E type_string zero depth ns fs (fields_of spec) ref = Ok L
       /\ forall k, In k nulls <-> In k ns) /\
    lookup (fname f) (l_map L) = sv /\
    Forall2 (block_text dat) bs (lbs) /\
    linked ref r1 /\ (forall x, sv = Some x -> usable_all (l_ref L) r1 x) /\ grows ref (l_ref L) /\ ref_ok (l_ref L) /\
    grows (l_ref L) r1 /\
    block_value E depth zero assignable hook self dat t f sv bs r1 = (r2, Ok o) /\
    match o with None => hget v' path = hget v path | Some (xt, x) => assignable xt ft = true /\ hget v' path = x end.
Proof.
  intros f tag kind path ft lbs H I T F NA. rewrite unmarshal_eq in H.
  apply (decoded_inv E depth type_string zero assignable decode_attr hook self (fields_of spec) ref ref' labels t v v' dat tt
    fs body nulls l U B N A ND) in H
    as (its & attrs & L & p & raw & P & -> & FA & D & NN & LF & C & S & G & R).
  destruct C as (C1 & C2 & C3 & C4 & _).
  unfold split_body in S. apply bindr_Ok in S as (q & S & X).
  apply split_attrs_parts in S as (_ & _ & _ & bss & S4 & S5).
  assert (PO : blocks_of tag (p_ori p) = (blocks_of tag (concat bss) ++ blocks_of tag (file_blocks its))%list).
  { injection X as <-. cbn [p_ori]. unfold blocks_of. rewrite filter_app, S5. f_equal.
    apply blocks_of_filter. rewrite C3, <- (tag_of_tag2 _ _ _ T). exact (tag_own l f Block I). }
  assert (BT : Forall2 (block_text dat) (blocks_of tag (p_ori p)) lbs).
  { rewrite PO. destruct NA as [NA|its' e pre c text post texts objects P' Ia Ed O Fo].
    - rewrite (attr_blocks_other _ _ _ _ S4); [exact (blocks_texts _ _ _ P)|].
      intro J. apply in_map_iff in J as (a & <- & J). apply filter_In in J as (J & _).
      destruct (file_attrs_In _ _ FA) as (F1 & _). destruct (F1 a J) as (e & K & _).
      apply (NA e). apply erase_attr. eauto.
    - assert (its' = its) by congruence. subst its'. apply Forall2_app; [|exact (blocks_texts _ _ _ P)].
      destruct (file_attrs_In _ _ FA) as (_ & F2). destruct (F2 _ _ _ _ Ia) as (x & _ & Ja).
      set (a := mkAttr tag x (String.length pre) (S (String.length pre + String.length text))) in Ja.
      assert (Jb : In a (filter (fun a => block_attr (null_names attrs) L (a_name a)) attrs)).
      { apply filter_In. split; [exact Ja|]. cbn [a_name a]. unfold block_attr.
        rewrite C1, C3, C4, <- (tag_of_tag2 _ _ _ T), (tag_own l f Block I).
        rewrite (tag_null E (fields_of spec) fs nulls l A f Block attrs NN I eq_refl).
        rewrite (tag_only E (fields_of spec) fs nulls l A NT f Block Label I eq_refl eq_refl ltac:(discriminate)).
        rewrite (tag_only E (fields_of spec) fs nulls l A NT f Block Generic I eq_refl eq_refl ltac:(discriminate)).
        reflexivity. }
      destruct (attr_blocks_one _ _ _ a tag S4 (NoDup_names_filter _ _ D) Jb eq_refl) as (bs & Hb & ->).
      assert (Ci : can_iterate (a_value a) = true).
      { unfold attr_blocks in Hb. destruct (can_iterate (a_value a)); [reflexivity|discriminate]. }
      destruct (split_objects dat a pre c text post texts Ed eq_refl eq_refl Ci O) as (bs' & Hb' & Et & Tb).
      assert (bs' = bs) by congruence. subst bs'. apply objects_texts; [rewrite Et; exact Fo|].
      intros b Ib. apply (Tb b Ib). }
  apply gohcl_decode_inv in G as (_ & G & _). pose proof (gohcl_values_len _ _ _ _ _ G) as Len.
  assert (K0 : linked ref ref) by (split; [exact RO|]; split; [exact RO|]; intros s _; reflexivity).
  assert (LV : level_ok ref (fields_of spec)).
  { intros k x Lk. left. intros s c V C. apply UF. exists k, x, s. apply lookup_In in Lk. auto. }
  pose proof (loop_fields_rel E type_string zero distinct depth (null_names attrs) fs (fields_of spec) ref ref RO RO LV LV) as LR.
  rewrite LF in LR. destruct LR as (_ & _ & _ & _ & _ & GR & _ & OK & _ & LV1 & _).
  assert (KL : linked (l_ref L) (l_ref L)) by (split; [exact OK|]; split; [exact OK|]; intros s _; reflexivity).
  pose proof (acts_rel E depth type_string zero assignable hook distinct self self_rel dat t labels (l_labels L) (l_new L)
    (l_dec L) (l_ori L) (l_map L) p raw (l_ref L) (l_ref L) LV1 LV1) as AR. cbn zeta in AR.
  assert (If : In f (l_ori L)) by (rewrite C3; apply of_class_In; exact I).
  apply in_split in If as (o1 & o2 & Eo).
  unfold block_actions in R, AR. rewrite Eo, map_app in R, AR. cbn [map] in R, AR.
  match type of R with run _ _ _ _ ?acts _ _ = _ => match acts with
    (?a ++ ?b ++ ?c ++ ?d ++ ?e ++ ?x :: ?y)%list =>
    replace acts with ((a ++ b ++ c ++ d ++ e) ++ x :: y)%list in R by (rewrite <- !app_assoc; reflexivity);
    set (pre := (a ++ b ++ c ++ d ++ e)%list) in R;
    assert (AR' : Forall2 (action_rel E type_string zero (l_ref L) (l_ref L)) pre pre)
  end end.
  { unfold pre. rewrite !app_assoc in AR. rewrite !app_assoc. exact (Forall2_prefix _ _ _ _ AR). }
  assert (NB : NoDup (map fname (l_ori L))) by (rewrite C3; apply class_names; exact ND).
  rewrite Eo, map_app in NB. cbn [map] in NB. apply NoDup_remove_2 in NB.
  destruct (action_names E depth type_string zero assignable decode_attr hook self dat t (l_map L) p raw L labels Len) as (N1 & N2 & N3 & N4 & _).
  pose proof R as R'.
  apply run_value with (p := path) (ft := ft) in R as (v1 & r1 & r2 & R1 & R2); [| |exact F].
  2: { rewrite map_map. cbn [fst]. intro J. apply NB. apply in_or_app. right. exact J. }
  pose proof (run_rel E depth type_string zero assignable (l_ref L) (l_ref L) t pre pre v KL AR') as (_ & _ & T3).
  rewrite R1 in T3. cbn [fst snd] in T3. destruct T3 as (_ & G1 & _ & O1).
  assert (Bf : hget v1 path = hget v path).
  { apply run_before with (name := fname f) (p := path) (ft := ft) in R1; [exact R1| |exact F].
    unfold pre. rewrite !map_app. intro J.
    assert (Ap : forall c d, In (f, c) l -> c <> d -> ~ In (fname f) (map fname (of_class d l))).
    { intros c d If Ne. exact (names_apart l ND c d f If Ne). }
    apply in_app_or in J as [J|J]; [|apply in_app_or in J as [J|J]; [|apply in_app_or in J as [J|J];
      [|apply in_app_or in J as [J|J]]]].
    - apply N1 in J. rewrite C1 in J. exact (Ap Block Label I ltac:(discriminate) J).
    - apply N2 in J. rewrite C1 in J. exact (Ap Block Label I ltac:(discriminate) J).
    - assert (K : In (fname f) (map fname (l_new L))) by (rewrite <- N3; exact J).
      rewrite C2 in K. exact (Ap Block Attr I ltac:(discriminate) K).
    - assert (K : In (fname f) (map fname (l_dec L))) by (rewrite <- N4; exact J).
      rewrite C4 in K. exact (Ap Block Generic I ltac:(discriminate) K).
    - rewrite map_map in J. cbn [fst] in J. apply NB. apply in_or_app. left. exact J. }
  cbv beta in R2. rewrite (tag_of_tag2 _ _ _ T) in R2.
  assert (K1 : linked ref r1).
  { split; [exact RO|]. split; [exact O1|]. intros s Us. destruct GR as (GR & _), G1 as (G1 & _).
    rewrite (G1 s Us), (GR s Us). reflexivity. }
  assert (KG : both_grow (l_ref L) (l_ref L) (l_ref L) r1).
  { split; [apply grows_refl|]. split; [exact G1|]. split; [exact OK|exact O1]. }
  assert (UA : forall x, lookup (fname f) (l_map L) = Some x -> usable_all (l_ref L) r1 x).
  { intros x Lx s V. apply (usable_grows _ _ _ (l_ref L) (l_ref L) _ _ _ KG).
    destruct (LV1 _ _ Lx) as [Us|(s1 & u1 & Nt & Lk1 & X1)].
    - left. intros c Cc. exact (Us s c V Cc).
    - right. exists s1, u1. split; [exact (X1 _ V)|]. auto. }
  exists L, (blocks_of tag (p_ori p)), (lookup (fname f) (l_map L)), r1, r2.
  destruct R2 as [(R2 & V)|(xt & x & R2 & As & V)].
  - exists None. split; [eauto|]. split; [reflexivity|]. split; [exact BT|].
    do 5 (split; [assumption|]). split; [exact R2|]. congruence.
  - exists (Some (xt, x)). split; [eauto|]. split; [reflexivity|]. split; [exact BT|].
    do 5 (split; [assumption|]). split; [exact R2|]. auto.
Qed.

(* One element: a block with its labels and body, of the struct s of the spec. *)
Definition element (s : sstruct) (lb : list string * list item) (x : gtype * hval) : Prop :=
  exists text, (exists pre post, dat = pre +++ text +++ post) /\ parse_config text = Ok (snd lb) /\
    block_gives ref s (fst lb) text (fst x) (snd x).

Lemma element_intro : forall s hb lb ct y, block_text dat hb lb ->
  block_gives ref s (b_labels hb) (block_bytes dat hb) ct y -> element s lb (ct, y).
Proof.
  intros s hb lb ct y (E1 & E2) G. exists (block_bytes dat hb). split; [apply substring_part|].
  split; [exact E2|]. rewrite <- E1. exact G.
Qed.

Lemma user_usable : forall name x r1, lookup name (fields_of spec) = Some x -> usable_all ref r1 x.
Proof.
  intros name x r1 L s V. left. intros c C. apply UF. exists name, x, s. apply lookup_In in L. auto.
Qed.

(* A list spec on a slice field. *)
Theorem list_field : forall f tag kind path ft lbs s0 ss et,
  unmarshal_spec spec ref labels t v dat = (v', ref', Ok tt) ->
  In (f, Block) l -> tag2 (ftag f) = Ok (tag, kind) -> find_field t (fname f) = Some (path, ft) ->
  stands dat body tag lbs ->
  lookup (fname f) (fields_of spec) = Some (VList (s0 :: ss)) -> under E (ftype f) = TSlice et ->
  (lbs = [] /\ hget v' path = hget v path)
  \/ exists xs, hget v' path = HSlice xs /\ List.length xs = List.length (lbs) /\
    forall k lb, nth_error (lbs) k = Some lb -> exists s x,
      (nth_error (s0 :: ss) k = Some s \/ nth_error (s0 :: ss) k = None /\ s = s0) /\
      element s lb x /\ nth_error xs k = Some (snd (stored E et (fst x) (snd x))).
Proof.
  intros f tag kind path ft lbs s0 ss et H I T F NA LS UT.
  destruct (block_field _ _ _ _ _ _ H I T F NA) as (L & bs & sv & r1 & r2 & o & (ns & LF & NS') & Lk & BT & K & UA & _ & _ & _ & BV & O).
  rewrite (loop_fields_keep _ _ _ _ _ _ LF _ _ LS) in Lk. subst sv.
  destruct bs as [|b0 bs0].
  { left. inversion BT. cbn in BV. injection BV as <- <-. auto. }
  right. unfold block_value in BV. rewrite UT in BV.
  destruct (list_loop E zero assignable hook self dat et (s0 :: ss) s0 0 (b0 :: bs0) r1) as [r3 [xs| |]] eqn:R; try discriminate.
  cbn [mapped] in BV. injection BV as <- <-. destruct O as (_ & O).
  destruct (list_loop_gives dat et (s0 :: ss) s0 _ _ ref _ _ _ K (or_introl eq_refl) (user_usable _ _ _ LS) R) as (Ln & _ & G).
  exists xs. split; [exact O|]. pose proof (Forall2_len _ _ _ _ _ BT) as LB. split; [lia|].
  intros k lb Hk. assert (Hb : exists b, nth_error (b0 :: bs0) k = Some b /\ block_text dat b lb).
  { clear -BT Hk. revert k Hk. induction BT as [|x y xs ys Hxy BT IH]; intros [|k] Hk; cbn in *; try discriminate.
    - injection Hk as <-. eauto.
    - exact (IH k Hk). }
  destruct Hb as (b & Hb & Tb). destruct (G k b Hb) as (ct & y & G1 & G2).
  exists (nth_or_first (s0 :: ss) s0 k), (ct, y). split.
  - unfold nth_or_first. destruct (nth_error (s0 :: ss) k); auto.
  - split; [exact (element_intro _ _ _ _ _ Tb G1)|exact G2].
Qed.

(* The last block whose first label is k. *)
Definition last_labelled (k : string) (bs : list (list string * list item)) : option (list string * list item) :=
  find (fun lb => match fst lb with x :: _ => if string_dec x k then true else false | [] => false end) (rev bs).
Lemma find_app : forall X (p : X -> bool) a b, find p (a ++ b) = match find p a with Some x => Some x | None => find p b end.
Proof. intros X p. induction a as [|x a IH]; intro b; [reflexivity|]. cbn. destruct (p x); [reflexivity|apply IH]. Qed.
Lemma last_with_labelled : forall k bs lbs, Forall2 (block_text dat) bs lbs ->
  match last_labelled k lbs with
  | Some lb => exists b, last_with (keyed k) bs = Some b /\ block_text dat b lb
  | None => last_with (keyed k) bs = None
  end.
Proof.
  intros k bs lbs H. induction H as [|b lb bs lbs Hb H IH]; [reflexivity|].
  unfold last_labelled in IH |- *. cbn [rev]. rewrite find_app.
  destruct (find _ (rev lbs)) as [x|].
  - destruct IH as (b' & IH & T). exists b'. cbn [last_with]. rewrite IH. auto.
  - cbn [last_with find]. rewrite IH. pose proof Hb as (E1 & _). unfold keyed. rewrite E1.
    destruct (fst lb) as [|x ls]; [reflexivity|].
    destruct (string_dec x k) as [->|NE].
    + rewrite String.eqb_refl. eauto.
    + destruct (String.eqb_spec x k); [contradiction|reflexivity].
Qed.

(* A map spec. *)
Theorem map_field : forall f tag kind path ft lbs cs kt et,
  unmarshal_spec spec ref labels t v dat = (v', ref', Ok tt) ->
  In (f, Block) l -> tag2 (ftag f) = Ok (tag, kind) -> find_field t (fname f) = Some (path, ft) ->
  stands dat body tag lbs ->
  lookup (fname f) (fields_of spec) = Some (VMap cs) -> under E (ftype f) = TMap kt et ->
  (lbs = [] /\ hget v' path = hget v path)
  \/ exists xs, hget v' path = HMap xs /\ (forall lb, In lb (lbs) -> exists x, fst lb = [x]) /\
    forall k, match last_labelled k (lbs) with
              | None => lookup k xs = None
              | Some lb => exists s x,
                (lookup k cs = Some s \/ lookup k cs = None /\ exists k0 cs', cs = (k0, s) :: cs') /\
                element s lb x /\ lookup k xs = Some (snd (stored E et (fst x) (snd x)))
              end.
Proof.
  intros f tag kind path ft lbs cs kt et H I T F NA LS UT.
  destruct (block_field _ _ _ _ _ _ H I T F NA) as (L & bs & sv & r1 & r2 & o & (ns & LF & NS') & Lk & BT & K & UA & _ & _ & _ & BV & O).
  rewrite (loop_fields_keep _ _ _ _ _ _ LF _ _ LS) in Lk. subst sv.
  destruct bs as [|b0 bs0].
  { left. inversion BT. cbn in BV. injection BV as <- <-. auto. }
  right. unfold block_value in BV. rewrite UT in BV.
  destruct (map_loop E zero assignable hook self dat kt et cs (b0 :: bs0) [] r1) as [r3 [xs| |]] eqn:R; try discriminate.
  cbn [mapped] in BV. injection BV as <- <-. destruct O as (_ & O).
  destruct (map_loop_gives _ _ _ _ _ _ ref _ _ _ K (user_usable _ _ _ LS) R) as (Ln & _ & G).
  exists xs. split; [exact O|]. split.
  - intros lb J. clear -BT Ln J. induction BT as [|x y xs ys Hxy BT IH]; [contradiction|].
    destruct J as [<-|J]; [|apply IH; [intros b I; apply Ln; right; exact I|exact J]].
    destruct Hxy as (<- & _). apply Ln. left. reflexivity.
  - intro k. specialize (G k). pose proof (last_with_labelled k _ _ BT) as LW.
    destruct (last_labelled k (lbs)) as [lb|].
    + destruct LW as (b & LW & Tb). rewrite LW in G. destruct G as (s & ct & y & MC & G1 & G2).
      exists s, (ct, y). split; [|split; [exact (element_intro _ _ _ _ _ Tb G1)|exact G2]].
      unfold map_class in MC. destruct (lookup k cs); [left; congruence|]. right. split; [reflexivity|].
      destruct cs as [|[k0 s'] cs']; [discriminate|]. injection MC as ->. eauto.
    + rewrite LW in G. exact G.
Qed.

(* A map of pairs: the class of the block's two labels, or a default. *)
Inductive class_of_labels (m : list (string * list (string * sstruct))) (a b : string) : sstruct -> Prop :=
| cl_own ms s : lookup a m = Some ms -> lookup b ms = Some s -> class_of_labels m a b s
| cl_first_map k0 ms m' s : lookup a m = None -> m = (k0, ms) :: m' -> lookup b ms = Some s -> class_of_labels m a b s
| cl_first ms k0 k1 s ms' m' : (lookup a m = Some ms /\ lookup b ms = None
      \/ lookup a m = None /\ lookup b ((k1, s) :: ms') = None) ->
    m = (k0, (k1, s) :: ms') :: m' -> class_of_labels m a b s.
Definition first_label (ls : list string) : string := match ls with a :: _ => a | [] => "" end.
Definition second_label (ls : list string) : string := match ls with _ :: b :: _ => b | _ => "" end.
Lemma map2_class_of : forall m b s, map2_class m b = Some s ->
  class_of_labels m (first_label (b_labels b)) (second_label (b_labels b)) s.
Proof.
  intros m b s H. unfold map2_class in H. fold (first_label (b_labels b)) in H.
  change (label0 b) with (first_label (b_labels b)) in H. change (label1 b) with (second_label (b_labels b)) in H.
  destruct (lookup (first_label (b_labels b)) m) as [ms|] eqn:L0.
  - destruct (lookup (second_label (b_labels b)) ms) as [s'|] eqn:L1.
    + injection H as <-. eapply cl_own; eassumption.
    + destruct m as [|[k0 [|[k1 s'] ms']] m']; try discriminate. injection H as ->.
      eapply cl_first; [left; split; eassumption|reflexivity].
  - destruct m as [|[k0 ms] m']; [discriminate|]. cbn [first_value] in H.
    destruct (lookup (second_label (b_labels b)) ms) as [s'|] eqn:L1.
    + injection H as <-. eapply cl_first_map; [exact L0|reflexivity|exact L1].
    + destruct ms as [|[k1 s'] ms']; [discriminate|]. injection H as ->.
      eapply cl_first with (ms := []); [right; split; [exact L0|exact L1]|reflexivity].
Qed.
Theorem map2_field : forall f tag kind path ft lbs cs kt et,
  unmarshal_spec spec ref labels t v dat = (v', ref', Ok tt) ->
  In (f, Block) l -> tag2 (ftag f) = Ok (tag, kind) -> find_field t (fname f) = Some (path, ft) ->
  stands dat body tag lbs ->
  lookup (fname f) (fields_of spec) = Some (VMap2 cs) -> under E (ftype f) = TMap kt et ->
  (lbs = [] /\ hget v' path = hget v path)
  \/ exists xs es, hget v' path = HMap2 xs /\
    Forall2 (fun lb (e : (string * string) * (gtype * hval)) => List.length (fst lb) <= 2 /\
      pair_key_of (fst lb) (own_labels E (fst (snd e)) (snd (snd e))) (fst e) /\
      exists s, class_of_labels cs (first_label (fst lb)) (second_label (fst lb)) s /\ element s lb (snd e))
      (lbs) es /\
    forall k, lookup k xs = option_map (fun x => snd (stored E et (fst x) (snd x))) (lookup k (rev es)).
Proof.
  intros f tag kind path ft lbs cs kt et H I T F NA LS UT.
  destruct (block_field _ _ _ _ _ _ H I T F NA) as (L & bs & sv & r1 & r2 & o & (ns & LF & NS') & Lk & BT & K & UA & _ & _ & _ & BV & O).
  rewrite (loop_fields_keep _ _ _ _ _ _ LF _ _ LS) in Lk. subst sv.
  destruct bs as [|b0 bs0].
  { left. inversion BT. cbn in BV. injection BV as <- <-. auto. }
  right. unfold block_value in BV. rewrite UT in BV.
  destruct (map2_loop E zero assignable hook self dat kt et cs (b0 :: bs0) [] r1) as [r3 [xs| |]] eqn:R; try discriminate.
  cbn [mapped] in BV. injection BV as <- <-. destruct O as (_ & O).
  destruct (map2_loop_gives _ _ _ _ _ _ ref _ _ _ K (user_usable _ _ _ LS) R) as (es & G1 & G2).
  exists xs, es. split; [exact O|]. split.
  - clear -BT G1. revert es G1. induction BT as [|hb lb bs lbs Hb BT IH]; intros es G1; inversion G1; subst; constructor.
    + destruct H1 as (A1 & A2 & s & A3 & A4). pose proof Hb as (Eb & _). rewrite Eb in A1, A2.
      split; [exact A1|]. split; [exact A2|]. exists s. rewrite <- Eb at 1 2. split; [apply map2_class_of; exact A3|].
      destruct y as [k [ct z]]. exact (element_intro _ _ _ _ _ Hb A4).
    + apply IH. assumption.
  - intro k. rewrite G2. destruct (lookup k (rev es)) as [[ct y]|]; reflexivity.
Qed.

(* A single spec: the first block. *)
Theorem single_field : forall f tag kind path ft lbs s,
  unmarshal_spec spec ref labels t v dat = (v', ref', Ok tt) ->
  In (f, Block) l -> tag2 (ftag f) = Ok (tag, kind) -> find_field t (fname f) = Some (path, ft) ->
  stands dat body tag lbs ->
  lookup (fname f) (fields_of spec) = Some (VSingle s) ->
  match lbs with
  | [] => hget v' path = hget v path
  | lb :: _ => exists x, element s lb x /\ hget v' path = snd (stored E ft (fst x) (snd x))
  end.
Proof.
  intros f tag kind path ft lbs s H I T F NA LS.
  destruct (block_field _ _ _ _ _ _ H I T F NA) as (L & bs & sv & r1 & r2 & o & (ns & LF & NS') & Lk & BT & K & UA & _ & _ & _ & BV & O).
  rewrite (loop_fields_keep _ _ _ _ _ _ LF _ _ LS) in Lk. subst sv.
  destruct BT as [|b lb bs lbs Tb BT].
  { cbn in BV. injection BV as <- <-. exact O. }
  unfold block_value in BV.
  destruct (decode_block E zero hook self dat None s r1 b) as [r3 [[ct y]| |]] eqn:R; try discriminate.
  assert (Us : usable ref r1 s) by (apply (user_usable _ _ _ LS); constructor).
  destruct (decode_block_gives _ _ _ _ _ _ _ _ _ K Us R) as (G & _).
  exists (ct, y). split; [exact (element_intro _ _ _ _ _ Tb G)|].
  cbn [mapped] in BV. injection BV as <- <-. rewrite F in O. cbn [option_map snd fst] in O |- *.
  unfold stored, by_pointer. destruct (under E ft); cbn [snd]; apply O.
Qed.

(* ----- fields without a spec: new structs of the field's own type ----- *)

Inductive fresh_gives (u : gtype) (ls : list string) (text : string) : hval -> Prop :=
| fg_decoded x r : hook u = None ->
    unmarshal_spec None ref ls u (clone_value zero u (zero u)) text = (x, r, Ok tt) -> fresh_gives u ls text x
| fg_hook h x w : hook u = Some h -> h text ls (clone_value zero u (zero u)) = (x, Ok w) -> fresh_gives u ls text x.
Definition fresh_element (u : gtype) (lb : list string * list item) (x : hval) : Prop :=
  exists text, (exists pre post, dat = pre +++ text +++ post) /\ parse_config text = Ok (snd lb) /\
    fresh_gives u (fst lb) text x.

Lemma plain_gives : forall s u r hb lb ct y, linked ref r -> names_type E type_string s u ->
  lookup s r = Some (RObj u (zero u)) -> block_text dat hb lb ->
  block_gives r (plain_struct s) (b_labels hb) (block_bytes dat hb) ct y -> ct = u /\ fresh_element u lb y.
Proof.
  intros s u r hb lb ct y K Nt Ls (E1 & E2) G.
  assert (W : fresh_gives u (b_labels hb) (block_bytes dat hb) y -> fresh_element u lb y).
  { intro W. exists (block_bytes dat hb). split; [apply substring_part|]. split; [exact E2|]. rewrite <- E1. exact W. }
  destruct G as [ct cv x r' L Hk R|ct cv h x w L Hk R]; cbn [plain_struct class_name] in L; rewrite Ls in L;
    injection L as <- <-; (split; [reflexivity|]); apply W.
  - pose proof (self_rel (plain_struct s) (b_labels hb) u (clone_value zero u (zero u)) (block_bytes dat hb) ref r K) as SR.
    assert (UF0 : user_fields E type_string (spec_fields (plain_struct s))).
    { intros c (name & x' & s' & [] & _). }
    destruct (SR UF0) as (T1 & T2 & _). unfold self in T1, T2. rewrite R in T1, T2. cbn [fst snd] in T1, T2.
    destruct (unmarshal_spec (Some (plain_struct s)) ref (b_labels hb) u (clone_value zero u (zero u)) (block_bytes dat hb))
      as [[x0 r0] o0] eqn:R0. cbn [fst snd] in T1, T2. subst x0 o0.
    apply (fg_decoded _ _ _ _ r0); [exact Hk|]. rewrite unmarshal_eq in R0 |- *. exact R0.
  - eapply fg_hook; eassumption.
Qed.

Lemma auto_names : forall et u, elem_class E et = Registered u -> names_type E type_string (type_string et) u.
Proof.
  intros et u H. unfold elem_class in H. destruct (under E et) eqn:Ue; try discriminate; injection H as <-.
  - right. exists et. auto.
  - left. split; [eexists; exact Ue|reflexivity].
Qed.
Lemma usable_plain : forall s u r r1, usable r r1 (plain_struct s) -> names_type E type_string s u ->
  lookup s r = Some (RObj u (zero u)).
Proof.
  intros s u r r1 [Us|(c & u' & Ec & Nc & L1 & _)] Nt.
  - exfalso. apply (Us s (sc_here s None) u). exact Nt.
  - unfold plain_struct in Ec. injection Ec as <-. rewrite (distinct _ _ _ Nt Nc). exact L1.
Qed.

Theorem auto_field : forall f tag kind path ft lbs st,
  unmarshal_spec spec ref labels t v dat = (v', ref', Ok tt) ->
  In (f, Block) l -> tag2 (ftag f) = Ok (tag, kind) -> find_field t (fname f) = Some (path, ft) ->
  stands dat body tag lbs -> ~ In (fname f) (keys (fields_of spec)) -> points E (ftype f) st ->
  match lbs with
  | [] => hget v' path = hget v path
  | lb0 :: _ =>
    (is_struct E st -> exists x, fresh_element st lb0 x /\ hget v' path = snd (stored E ft st x)) /\
    (forall et u, under E (ftype f) = TSlice et -> elem_class E et = Registered u ->
       exists xs, hget v' path = HSlice xs /\
       Forall2 (fun lb x => exists y, fresh_element u lb y /\ x = snd (stored E et u y)) (lbs) xs) /\
    (forall kt et u, under E (ftype f) = TMap kt et -> pair_key E kt = false -> elem_class E et = Registered u ->
       exists xs, hget v' path = HMap xs /\ forall k, match last_labelled k (lbs) with
         | None => lookup k xs = None
         | Some lb => exists y, fresh_element u lb y /\ lookup k xs = Some (snd (stored E et u y))
         end)
  end.
Proof.
  intros f tag kind path ft lbs st H I T F NA NS P.
  destruct (block_field _ _ _ _ _ _ H I T F NA) as (L & bs & sv & r1 & r2 & o & (ns & LF & NS') & Lk & BT & K & UA & GR & OK & G1 & BV & O).
  assert (KA : keys_agree (keys (fields_of spec)) l (fields_of spec)).
  { intros g c _. split.
    - intros J Z. apply lookup_None in Z. exact (Z J).
    - intro Z. destruct (lookup (fname g) (fields_of spec)) eqn:Lg; [|congruence]. apply lookup_Some_key. eauto. }
  destruct (loop_fields_auto _ _ _ _ (all_fields_ext _ _ _ _ _ _ NS' A) _ _ _ _ KA ND LF f I NS)
    as (st' & u & x & P' & Bt & Av & Lx).
  assert (st' = st) by (rewrite <- (points_elem _ _ _ P), <- (points_elem _ _ _ P'); reflexivity). subst st'.
  rewrite Lx in Lk. subst sv. specialize (UA x eq_refl).
  assert (KL : linked ref (l_ref L)).
  { split; [exact RO|]. split; [exact OK|]. intros s Us. symmetry. apply GR. exact Us. }
  assert (K1 : linked (l_ref L) r1).
  { split; [exact OK|]. split; [apply K|]. intros s Us. symmetry. apply G1. exact Us. }
  destruct BT as [|b lb bs lbs Tb BT].
  { cbn in BV. injection BV as <- <-. exact O. }
  split; [|split].
  - intros (gs & Us). unfold auto_value in Av. rewrite Us in Av. injection Av as <- <-.
    assert (Nt : names_type E type_string (type_string st) st) by (left; split; [eexists; exact Us|reflexivity]).
    unfold block_value in BV.
    destruct (decode_block E zero hook self dat None (plain_struct (type_string st)) r1 b) as [r3 [[ct y]| |]] eqn:R;
      try discriminate.
    assert (Up : usable (l_ref L) r1 (plain_struct (type_string st))) by (apply UA; constructor).
    destruct (decode_block_gives _ _ _ _ _ _ _ _ _ K1 Up R) as (G & _).
    destruct (plain_gives _ _ _ _ _ _ _ KL Nt (usable_plain _ _ _ _ Up Nt) Tb G) as (-> & Fr).
    exists y. split; [exact Fr|]. cbn [mapped] in BV. injection BV as <- <-. rewrite F in O.
    cbn [option_map snd fst] in O. unfold stored, by_pointer. destruct (under E ft); cbn [snd]; apply O.
  - intros et u' Ut Ec.
    assert (st = ftype f) by (inversion P; [congruence|reflexivity]). subst st.
    unfold auto_value in Av. rewrite Ut, Ec in Av. injection Av as <- <-.
    pose proof (auto_names _ _ Ec) as Nt. unfold block_value in BV. rewrite Ut in BV.
    set (s := plain_struct (type_string et)) in *.
    assert (Up : usable (l_ref L) r1 s) by (apply UA; constructor; left; reflexivity).
    pose proof (usable_plain _ _ _ _ Up Nt) as Ls.
    destruct (list_loop E zero assignable hook self dat et [s] s 0 (b :: bs) r1) as [r3 [xs| |]] eqn:R; try discriminate.
    cbn [mapped] in BV. injection BV as <- <-. destruct O as (_ & O). exists xs. split; [exact O|].
    destruct (list_loop_gives dat et [s] s _ _ (l_ref L) _ _ _ K1 (or_introl eq_refl) UA R) as (Ln & _ & G).
    assert (Ns : forall k, nth_or_first [s] s k = s).
    { intros [|[|k]]; reflexivity. }
    assert (BT' : Forall2 (block_text dat) (b :: bs) (lb :: lbs)) by (constructor; assumption).
    clear -distinct Ln G BT' Ns KL Nt Ls. remember (b :: bs) as bb eqn:Eb. remember (lb :: lbs) as ll eqn:El. clear Eb El b bs lb lbs.
    revert xs Ln G. induction BT' as [|hb lb bs lbs Hb BT IH]; intros [|x xs] Ln G; try discriminate; constructor.
    + destruct (G 0 hb eq_refl) as (ct & y & G1 & G2). rewrite Ns in G1. injection G2 as ->.
      destruct (plain_gives _ _ _ _ _ _ _ KL Nt Ls Hb G1) as (-> & Fr). eauto.
    + apply IH; [cbn in Ln; lia|]. intros i hb' Hi. destruct (G (S i) hb' Hi) as (ct & y & G1 & G2).
      rewrite Ns in G1 |- *. exists ct, y. auto.
  - intros kt et u' Ut Pk Ec.
    assert (st = ftype f) by (inversion P; [congruence|reflexivity]). subst st.
    unfold auto_value in Av. rewrite Ut, Ec, Pk in Av. injection Av as <- <-.
    pose proof (auto_names _ _ Ec) as Nt. unfold block_value in BV. rewrite Ut in BV.
    set (s := plain_struct (type_string et)) in *.
    assert (Up : usable (l_ref L) r1 s) by (apply UA; constructor; left; reflexivity).
    pose proof (usable_plain _ _ _ _ Up Nt) as Ls.
    destruct (listmap_loop E zero assignable hook self dat kt et s (b :: bs) [] r1) as [r3 [xs| |]] eqn:R; try discriminate.
    cbn [mapped] in BV. injection BV as <- <-. destruct O as (_ & O). exists xs. split; [exact O|].
    destruct (listmap_loop_gives dat kt et s _ _ (l_ref L) _ _ _ K1 Up R) as (_ & _ & G).
    intro k. specialize (G k). assert (BT' : Forall2 (block_text dat) (b :: bs) (lb :: lbs)) by (constructor; assumption).
    pose proof (last_with_labelled k _ _ BT') as LW.
    destruct (last_labelled k (lb :: lbs)) as [lb'|].
    + destruct LW as (b' & LW & Tb'). rewrite LW in G. destruct G as (ct & y & G2 & G3).
      destruct (plain_gives _ _ _ _ _ _ _ KL Nt Ls Tb' G2) as (-> & Fr). eauto.
    + rewrite LW in G. exact G.
Qed.

(* A map with pairs as keys: one entry for each block, under its two labels or the label fields
   of the decoded struct. *)
Theorem auto_pairs : forall f tag kind path ft lbs kt et u,
  unmarshal_spec spec ref labels t v dat = (v', ref', Ok tt) ->
  In (f, Block) l -> tag2 (ftag f) = Ok (tag, kind) -> find_field t (fname f) = Some (path, ft) ->
  stands dat body tag lbs -> ~ In (fname f) (keys (fields_of spec)) ->
  under E (ftype f) = TMap kt et -> pair_key E kt = true -> elem_class E et = Registered u ->
  (lbs = [] /\ hget v' path = hget v path)
  \/ exists xs es, hget v' path = HMap2 xs /\
    Forall2 (fun lb (e : (string * string) * hval) => List.length (fst lb) <= 2 /\
      pair_key_of (fst lb) (own_labels E u (snd e)) (fst e) /\ fresh_element u lb (snd e))
      (lbs) es /\
    forall k, lookup k xs = option_map (fun y => snd (stored E et u y)) (lookup k (rev es)).
Proof.
  intros f tag kind path ft lbs kt et u H I T F NA NS Ut Pk Ec.
  destruct (block_field _ _ _ _ _ _ H I T F NA) as (L & bs & sv & r1 & r2 & o & (ns & LF & NS') & Lk & BT & K & UA & GR & OK & G1 & BV & O).
  assert (KA : keys_agree (keys (fields_of spec)) l (fields_of spec)).
  { intros g c _. split.
    - intros J Z. apply lookup_None in Z. exact (Z J).
    - intro Z. destruct (lookup (fname g) (fields_of spec)) eqn:Lg; [|congruence]. apply lookup_Some_key. eauto. }
  destruct (loop_fields_auto _ _ _ _ (all_fields_ext _ _ _ _ _ _ NS' A) _ _ _ _ KA ND LF f I NS)
    as (st & u' & x & P & Bt & Av & Lx).
  assert (st = ftype f) by (inversion P; [congruence|reflexivity]). subst st.
  rewrite Lx in Lk. subst sv. specialize (UA x eq_refl).
  assert (KL : linked ref (l_ref L)).
  { split; [exact RO|]. split; [exact OK|]. intros s Us. symmetry. apply GR. exact Us. }
  assert (K1 : linked (l_ref L) r1).
  { split; [exact OK|]. split; [apply K|]. intros s Us. symmetry. apply G1. exact Us. }
  destruct bs as [|b0 bs0].
  { left. inversion BT. cbn in BV. injection BV as <- <-. auto. }
  right. unfold auto_value in Av. rewrite Ut, Ec, Pk in Av. injection Av as <- <-.
  pose proof (auto_names _ _ Ec) as Nt. unfold block_value in BV. rewrite Ut in BV.
  set (s := plain_struct (type_string et)) in *.
  assert (Up : usable (l_ref L) r1 s) by (apply UA; apply (vs_map2 _ "" "" [("", s)]); left; reflexivity).
  pose proof (usable_plain _ _ _ _ Up Nt) as Ls.
  destruct (map2_loop E zero assignable hook self dat kt et [("", [("", s)])] (b0 :: bs0) [] r1) as [r3 [xs| |]] eqn:R; try discriminate.
  cbn [mapped] in BV. injection BV as <- <-. destruct O as (_ & O).
  destruct (map2_loop_gives _ _ _ _ _ _ (l_ref L) _ _ _ K1 UA R) as (es & Ge & G2).
  assert (X : exists ys, Forall2 (fun lb (e : (string * string) * hval) => List.length (fst lb) <= 2 /\
      pair_key_of (fst lb) (own_labels E u (snd e)) (fst e) /\ fresh_element u lb (snd e)) (lbs) ys /\
      es = map (fun e => (fst e, (u, snd e))) ys).
  { clear -distinct BT Ge KL Nt Ls. revert es Ge. induction BT as [|hb lb bs lbs Hb BT IH]; intros es Ge; inversion Ge; subst.
    - exists []. split; [constructor|reflexivity].
    - match goal with H : Forall2 _ bs _ |- _ => destruct (IH _ H) as (ys & Y1 & ->) end.
      match goal with H : _ /\ _ /\ _ |- _ => destruct H as (A1 & A2 & s' & A3 & A4) end. pose proof Hb as (Eb & _). rewrite Eb in A1, A2.
      match goal with y : (string * string) * (gtype * hval) |- _ => destruct y as [k [ct z]] end. cbn [fst snd] in *.
      assert (s' = s) as ->.
      { pose proof (map2_class_struct _ _ _ A3) as V. exact (plain_map2 (type_string et) s' V). }
      destruct (plain_gives _ _ _ _ _ _ _ KL Nt Ls Hb A4) as (-> & Fr).
      exists ((k, z) :: ys). split; [|reflexivity]. constructor; [|exact Y1]. cbn [fst snd]. auto. }
  destruct X as (ys & Y & ->). exists xs, ys. split; [exact O|]. split; [exact Y|].
  intro k. rewrite G2, <- map_rev. generalize (rev ys). intro r. induction r as [|[k0 y0] r IH]; [reflexivity|].
  cbn [map lookup fst snd]. destruct (eq_dec k k0); [reflexivity|exact IH].
Qed.
End One.
End Block.
