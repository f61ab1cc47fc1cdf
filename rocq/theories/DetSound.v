(* A successful run of the model of JsonUnmarshal satisfies the specification. *)

From Verif Require Import Base GoType SpecModel CollectModel CollectSpec CollectProofs DetModel DetSpec DetProofs.

(* ------------------------------------------------------- nested specs *)


Lemma sstruct_induction (P : sstruct -> Prop) :
  (forall c fo, (forall om k v s, fo = Some om -> In (k, v) om -> in_value s v -> P s) -> P (SStruct c fo)) ->
  forall s, P s.
Proof.
  intros HP.
  set (all := fun v => match v with
    | VSingle s => P s | VList l => Forall P l | VMap m => Forall (fun ks : string * sstruct => P (snd ks)) m
    | VMap2 m => Forall (fun km : string * list (string * sstruct) => Forall (fun ks => P (snd ks)) (snd km)) m end).
  assert (Hall : forall v s, all v -> in_value s v -> P s).
  { intros v s Ha Hs. destruct Hs as [s|s l Hl|s m k Hm|s m k ms k' Hm Hms]; simpl in Ha; [exact Ha|..].
    - rewrite Forall_forall in Ha. auto.
    - rewrite Forall_forall in Ha. apply (Ha (k, s)); exact Hm.
    - rewrite Forall_forall in Ha. apply Ha in Hm. simpl in Hm. rewrite Forall_forall in Hm. apply (Hm (k', s)); exact Hms. }
  fix IH 1. intros [c fo]. apply HP. intros om k v s Hfo Hin Hs. eapply Hall; [|exact Hs].
  cut (match fo with Some om => Forall (fun kv => all (snd kv)) om | None => True end).
  { intros Hom. rewrite Hfo in Hom. rewrite Forall_forall in Hom. apply (Hom (k, v)); exact Hin. }
  clear -IH. destruct fo as [om|]; [|exact I]. induction om as [|[k v] om IHom]; constructor; [|exact IHom].
  simpl. clear -IH. destruct v as [s|l|m|m]; simpl.
  - apply IH.
  - induction l as [|a l IHl]; constructor; [apply IH|exact IHl].
  - induction m as [|[k a] m IHm]; constructor; [apply IH|exact IHm].
  - induction m as [|[k a] m IHm]; constructor; [|exact IHm]. simpl. clear -IH.
    induction a as [|[k1 b] a IHa]; constructor; [apply IH|exact IHa].
Qed.

(* ------------------------------------------------------------------ references *)

Section Refs.
Variable E : env.

Definition auto_ref (auto : list (string * tid)) : refmap := map (fun kn => (fst kn, RPtrTo (TNamed (snd kn)))) auto.

Definition merge_into (ref acc : refmap) : refmap :=
  fold_left (fun acc kv => match snd kv with RImpls _ => acc | v => insert (fst kv) v acc end) ref acc.

Lemma merge_lookup : forall ref acc c, NoDup (keys ref) ->
  lookup c (merge_into ref acc) =
  match lookup c ref with None | Some (RImpls _) => lookup c acc | Some r => Some r end.
Proof.
  unfold merge_into. induction ref as [|[k v] ref IH]; intros acc c Hnd; [reflexivity|].
  inversion Hnd as [|? ? Hnot Hnd']; subst. simpl. rewrite IH by exact Hnd'.
  destruct (eq_dec c k) as [->|Hk].
  - replace (lookup k ref) with (@None refval) by (symmetry; apply lookup_None; exact Hnot).
    destruct v; try reflexivity; apply lookup_insert_eq.
  - destruct (lookup c ref) as [[t|l| |]|]; try reflexivity;
      destruct v; try reflexivity; apply lookup_insert_ne; exact Hk.
Qed.

Lemma merge_nodup : forall ref acc, NoDup (keys acc) -> NoDup (keys (merge_into ref acc)).
Proof.
  unfold merge_into. induction ref as [|[k v] ref IH]; intros acc H; [exact H|]. simpl. apply IH.
  destruct v; try exact H; apply NoDup_keys_insert; exact H.
Qed.

Lemma over_nodup : forall f ts (ref r : list (string * tid)),
  (forall t ref r, f t ref = Some r -> NoDup (keys ref) -> NoDup (keys r)) ->
  over f ts ref = Some r -> NoDup (keys ref) -> NoDup (keys r).
Proof.
  intros f ts; induction ts as [|t ts IH]; intros ref r Hf H Hn; simpl in H; [inversion H; subst; exact Hn|].
  destruct (f t ref) as [ref'|] eqn:Et; [|discriminate]. eapply IH; [exact Hf|exact H|]. eapply Hf; eauto.
Qed.

Lemma collect_nodup : forall impls fuel t ref r, collect E impls fuel t ref = Some r -> NoDup (keys ref) -> NoDup (keys r).
Proof.
  intros impls; induction fuel as [|fuel IH]; intros t0 ref r H Hn; [discriminate|].
  cbn [collect] in H. set (t := match under E t0 with TPtr e => e | _ => t0 end) in H. clearbody t.
  destruct (under E t) as [n|u|u|u|k u|fs|ms|b]; try (inversion H; subst; exact Hn); try (eapply IH; eassumption).
  - destruct t as [n|u|u|u|k u|fs'|ms|b]; try (inversion H; subst; exact Hn).
    destruct (nth_error E n) as [d|]; [|inversion H; subst; exact Hn].
    match type of H with (if ?c then _ else _) = _ => destruct c end; [inversion H; subst; exact Hn|].
    eapply over_nodup; [exact IH|exact H|].
    destruct (string_dec (n_pkg d) ""); repeat apply NoDup_keys_insert; exact Hn.
  - destruct (lookup _ impls); [|inversion H; subst; exact Hn]. eapply over_nodup; [exact IH|exact H|exact Hn].
Qed.

Lemma merge_spec : forall depth ref t auto, NoDup (keys ref) ->
  collect E (implementations ref) depth (TPtr t) [] = Some auto ->
  merged E ref t (merge auto ref) /\ NoDup (keys (merge auto ref)).
Proof.
  intros depth ref t auto Hnd Hc. split.
  - intros c. unfold merge. fold (auto_ref auto). fold (merge_into ref (auto_ref auto)). rewrite merge_lookup by exact Hnd.
    assert (Ha : match lookup c (auto_ref auto) with
      | None => True
      | Some r => exists n, r = RPtrTo (TNamed n) /\ reaches E (implementations ref) (TPtr t) n /\ key_of E n c
      end).
    { unfold auto_ref. rewrite (lookup_map_snd _ _ (fun n => RPtrTo (TNamed n)) auto). destruct (lookup c auto) as [n|] eqn:El; simpl; [|exact I].
      exists n. split; [reflexivity|]. eapply collect_sound in El; [|exact Hc]. destruct El as [El|El]; [discriminate|exact El]. }
    destruct (lookup c ref) as [[u|l| |]|]; try reflexivity; exact Ha.
  - unfold merge. fold (auto_ref auto). fold (merge_into ref (auto_ref auto)). apply merge_nodup.
    unfold auto_ref. rewrite (keys_map_snd _ _ (fun n => RPtrTo (TNamed n)) auto). eapply collect_nodup; [exact Hc|constructor].
Qed.

Definition no_impls (ref : refmap) : Prop := forall c l, lookup c ref <> Some (RImpls l).

Lemma merged_no_impls : forall ref t ref', merged E ref t ref' -> no_impls ref'.
Proof.
  intros ref t ref' H c l Hl. specialize (H c).
  destruct (lookup c ref) as [[u|l'| |]|]; rewrite Hl in H; try congruence;
    destruct H as (n & Hn & _); discriminate.
Qed.

End Refs.

(* --------------------------------------------------------------------- the loops *)

Section Loops.
Variable zero : gtype -> gval.
Variable assignable : gtype -> gtype -> bool.

Notation decode_one := (decode_one zero).

Lemma map_loop_ok : forall ref kt et specs first raw acc r,
  map_loop zero assignable ref kt et specs first raw acc = Ok r -> NoDup (keys raw) -> NoDup (keys acc) ->
  NoDup (keys r) /\ (forall k, In k (keys r) <-> In k (keys acc) \/ In k (keys raw)) /\
  (forall k, ~ In k (keys raw) -> lookup k r = lookup k acc) /\
  (forall k j, In (k, j) raw -> exists t x,
     decode_one ref (match lookup k specs with Some s => s | None => first end) (Some j) = Ok (t, x) /\
     lookup k r = Some (XPtr t x)).
Proof.
  intros ref kt et specs first raw; induction raw as [|[k0 j0] raw IH]; intros acc r H Hr Ha.
  - inversion H; subst. split; [exact Ha|]. split; [intros k; simpl; tauto|]. split; [reflexivity|]. intros k j [].
  - cbn [map_loop] in H. apply bindr_Ok in H as ([t x] & Hd & H).
    destruct (_ && _); [|discriminate]. inversion Hr as [|? ? Hnot Hr']; subst.
    apply IH in H as (H1 & H2 & H3 & H4); [|exact Hr'|apply NoDup_keys_insert; exact Ha].
    split; [exact H1|]. split; [|split].
    + intros k. rewrite H2. simpl.
      assert (Hk : In k (keys (insert k0 (XPtr t x) acc)) <-> k0 = k \/ In k (keys acc)).
      { rewrite !lookup_Some_key. setoid_rewrite lookup_insert. destruct (eq_dec k k0) as [->|Hk].
        - split; [auto|]. intros _. eauto.
        - split; [auto|]. intros [?|?]; [congruence|assumption]. }
      rewrite Hk. tauto.
    + intros k Hk. rewrite H3 by (intros ?; apply Hk; right; assumption). apply lookup_insert_ne.
      intros ->. apply Hk; left; reflexivity.
    + intros k j [Hin|Hin]; [|auto]. inversion Hin; subst. exists t, x. split; [exact Hd|].
      rewrite H3 by exact Hnot. apply lookup_insert_eq.
Qed.

Lemma listmap_loop_ok : forall ref kt et specs first raw k0 acc r,
  listmap_loop zero assignable ref kt et specs first k0 raw acc = Ok r -> NoDup (keys raw) -> NoDup (keys acc) ->
  NoDup (keys r) /\ (forall k, In k (keys r) <-> In k (keys acc) \/ In k (keys raw)) /\
  (forall k, ~ In k (keys raw) -> lookup k r = lookup k acc) /\
  (forall i k j, nth_error raw i = Some (k, j) -> exists t x,
     decode_one ref (nth_or_first specs first (k0 + i)) (Some j) = Ok (t, x) /\
     lookup k r = Some (XPtr t x)).
Proof.
  intros ref kt et specs first raw; induction raw as [|[kk j0] raw IH]; intros k0 acc r H Hr Ha.
  - inversion H; subst. split; [exact Ha|]. split; [intros k; simpl; tauto|]. split; [reflexivity|].
    intros [|i] k j Hn; discriminate.
  - cbn [listmap_loop] in H. apply bindr_Ok in H as ([t x] & Hd & H).
    destruct (_ && _); [|discriminate]. inversion Hr as [|? ? Hnot Hr']; subst.
    apply IH in H as (H1 & H2 & H3 & H4); [|exact Hr'|apply NoDup_keys_insert; exact Ha].
    split; [exact H1|]. split; [|split].
    + intros k. rewrite H2. simpl.
      assert (Hk : In k (keys (insert kk (XPtr t x) acc)) <-> kk = k \/ In k (keys acc)).
      { rewrite !lookup_Some_key. setoid_rewrite lookup_insert. destruct (eq_dec k kk) as [->|Hk].
        - split; [auto|]. intros _. eauto.
        - split; [auto|]. intros [?|?]; [congruence|assumption]. }
      rewrite Hk. tauto.
    + intros k Hk. rewrite H3 by (intros ?; apply Hk; right; assumption). apply lookup_insert_ne.
      intros ->. apply Hk; left; reflexivity.
    + intros [|i] k j Hin.
      * inversion Hin; subst. exists t, x. rewrite Nat.add_0_r. split; [exact Hd|].
        rewrite H3 by exact Hnot. apply lookup_insert_eq.
      * simpl in Hin. destruct (H4 _ _ _ Hin) as (t' & x' & Hd' & Hl). exists t', x'.
        replace (k0 + S i) with (S k0 + i) by lia. auto.
Qed.

Lemma list_loop_ok : forall ref et specs first raw k0 r,
  list_loop zero assignable ref et specs first k0 raw = Ok r ->
  length r = length raw /\
  (forall i j, nth_error raw i = Some j -> exists t x,
     decode_one ref (nth_or_first specs first (k0 + i)) (Some j) = Ok (t, x) /\
     nth_error r i = Some (XPtr t x)).
Proof.
  intros ref et specs first raw; induction raw as [|j0 raw IH]; intros k0 r H.
  - inversion H; subst. split; [reflexivity|]. intros [|i] j Hn; discriminate.
  - cbn [list_loop] in H. apply bindr_Ok in H as ([t x] & Hd & H).
    destruct (assignable _ _); [|discriminate]. apply bindr_Ok in H as (l & Hl & H). inversion H; subst.
    apply IH in Hl as [H1 H2]. split; [simpl; congruence|]. intros [|i] j Hn.
    + inversion Hn; subst. exists t, x. rewrite Nat.add_0_r. auto.
    + simpl in Hn. destruct (H2 _ _ Hn) as (t' & x' & Hd' & Hl'). exists t', x'.
      replace (k0 + S i) with (S k0 + i) by lia. auto.
Qed.

Lemma keys_insert_iff : forall K V `{EqDec K} (k k0 : K) (v : V) acc,
  In k (keys (insert k0 v acc)) <-> k0 = k \/ In k (keys acc).
Proof.
  intros K V HK k k0 v acc. rewrite !lookup_Some_key. setoid_rewrite lookup_insert. destruct (eq_dec k k0) as [->|Hk].
  - split; [auto|]. intros _. eauto.
  - split; [auto|]. intros [?|?]; [congruence|assumption].
Qed.

Lemma map2_inner_ok : forall ref kt et specs first key0 raw acc r,
  map2_inner zero assignable ref kt et specs first key0 raw acc = Ok r -> NoDup (keys raw) -> NoDup (keys acc) ->
  NoDup (keys r) /\ (forall a b, In (a, b) (keys r) <-> In (a, b) (keys acc) \/ (a = key0 /\ In b (keys raw))) /\
  (forall a b, ~ (a = key0 /\ In b (keys raw)) -> lookup (a, b) r = lookup (a, b) acc) /\
  (forall b j, In (b, j) raw -> exists t x,
     decode_one ref (match lookup b specs with Some s => s | None => first end) (Some j) = Ok (t, x) /\
     lookup (key0, b) r = Some (XPtr t x)).
Proof.
  intros ref kt et specs first key0 raw; induction raw as [|[k0 j0] raw IH]; intros acc r H Hr Ha.
  - inversion H; subst. split; [exact Ha|]. split; [simpl; intros a b; tauto|]. split; [reflexivity|].
    intros b j [].
  - cbn [map2_inner] in H. apply bindr_Ok in H as ([t x] & Hd & H).
    destruct (_ && _); [|discriminate]. inversion Hr as [|? ? Hnot Hr']; subst.
    apply IH in H as (H1 & H2 & H3 & H4); [|exact Hr'|apply NoDup_keys_insert; exact Ha].
    split; [exact H1|]. split; [|split].
    + intros a b. rewrite H2, keys_insert_iff. simpl. split.
      * intros [[Heq|?]|[? ?]]; [inversion Heq; subst|..]; auto.
      * intros [?|[-> [->|?]]]; auto.
    + intros a b Hk. rewrite H3 by (intros [? ?]; apply Hk; simpl; auto). apply lookup_insert_ne.
      intros Heq; inversion Heq; subst. apply Hk; simpl; auto.
    + intros b j [Hin|Hin]; [|auto]. inversion Hin; subst. exists t, x. split; [exact Hd|].
      rewrite H3 by (intros [_ ?]; contradiction). apply lookup_insert_eq.
Qed.

Lemma map2_outer_ok : forall ref kt et specs firstms first raw acc r,
  map2_outer zero assignable ref kt et specs firstms first raw acc = Ok r ->
  NoDup (keys raw) -> (forall a m, In (a, m) raw -> NoDup (keys m)) -> NoDup (keys acc) ->
  NoDup (keys r) /\
  (forall a b, In (a, b) (keys r) <-> In (a, b) (keys acc) \/ exists m, In (a, m) raw /\ In b (keys m)) /\
  (forall a b, ~ In a (keys raw) -> lookup (a, b) r = lookup (a, b) acc) /\
  (forall a m b j, In (a, m) raw -> In (b, j) m -> exists t x,
     decode_one ref (match lookup b (match lookup a specs with Some s => s | None => firstms end) with
                     | Some s => s | None => first end) (Some j) = Ok (t, x) /\
     lookup (a, b) r = Some (XPtr t x)).
Proof.
  intros ref kt et specs firstms first raw; induction raw as [|[k0 m0] raw IH]; intros acc r H Hr Hi Ha.
  - inversion H; subst. split; [exact Ha|]. split.
    + intros a b. split; [auto|]. intros [?|(m & [] & _)]; assumption.
    + split; [reflexivity|]. intros a m b j [].
  - cbn [map2_outer] in H. apply bindr_Ok in H as (acc' & Hd & H).
    inversion Hr as [|? ? Hnot Hr']; subst.
    apply map2_inner_ok in Hd as (G1 & G2 & G3 & G4); [|apply (Hi k0); left; reflexivity|exact Ha].
    apply IH in H as (H1 & H2 & H3 & H4); [|exact Hr'|intros a m Hm; apply (Hi a); right; exact Hm|exact G1].
    split; [exact H1|]. split; [|split].
    + intros a b. rewrite H2, G2. split.
      * intros [[?|[-> ?]]|(m & Hm & Hb)]; [auto|right; exists m0; split; [left; reflexivity|assumption]|].
        right; exists m; split; [right; exact Hm|exact Hb].
      * intros [?|(m & [Hm|Hm] & Hb)]; [auto| |right; eauto]. inversion Hm; subst. auto.
    + intros a b Hk. simpl in Hk. rewrite H3 by tauto. apply G3. intros [-> _]. apply Hk; left; reflexivity.
    + intros a m b j [Hin|Hin] Hb; [|eapply H4; eauto]. inversion Hin; subst.
      destruct (G4 _ _ Hb) as (t & x & Hd' & Hl). exists t, x. split; [exact Hd'|].
      rewrite H3 by exact Hnot. exact Hl.
Qed.

End Loops.

(* ------------------------------------------------------------- raw contents *)

Section Sound.
Variable E : env.
Variable depth : nat.
Variable std : gtype -> gval -> option json -> gval * result unit.
Variable zero : gtype -> gval.
Variable assignable : gtype -> gtype -> bool.
Variable perm : list (string * json) -> list (string * json).
Hypothesis Hperm : forall m, Permutation (perm m) m.

Notation decode_one := (decode_one zero).

Lemma mapr_Forall2 : forall A B (f : A -> result B) l r, mapr f l = Ok r -> Forall2 (fun a b => f a = Ok b) l r.
Proof.
  intros A B f l; induction l as [|a l IH]; intros r H; simpl in H; [inversion H; constructor|].
  apply bindr_Ok in H as (b & Hb & H). apply bindr_Ok in H as (bs & Hbs & H). inversion H; subst. constructor; auto.
Qed.

Lemma raw_map_ok : forall oj m, raw_map perm oj = Ok m -> exists ms, entries oj ms /\ Permutation m (dedup ms).
Proof.
  intros oj m H. destruct oj as [[|b|n|s|l|ms]|]; simpl in H; try discriminate; inversion H; subst.
  - exists []. split; [repeat constructor|constructor].
  - exists ms. split; [repeat constructor|apply Hperm].
  - exists []. split; constructor.
Qed.

Lemma entries_fun : forall oj m m', entries oj m -> entries oj m' -> m = m'.
Proof.
  intros oj m m' H H'; inversion H as [|j m0 Hm]; subst; inversion H' as [|j' m1 Hm']; subst; [reflexivity|].
  inversion Hm; subst; inversion Hm'; reflexivity.
Qed.

Lemma raw_map2_ok : forall m m2,
  mapr (fun kj : string * json => do inner <- raw_map perm (Some (snd kj)); Ok (fst kj, inner)) m = Ok m2 ->
  keys m2 = keys m /\
  (forall a inner, In (a, inner) m2 -> exists j ms, In (a, j) m /\ entries (Some j) ms /\ Permutation inner (dedup ms)) /\
  (forall a j, In (a, j) m -> exists inner ms, In (a, inner) m2 /\ entries (Some j) ms /\ Permutation inner (dedup ms)).
Proof.
  intros m m2 H. apply mapr_Forall2 in H. induction H as [|[k j] [k' inner] m m2 Hx H IH].
  - split; [reflexivity|]. split; intros a b [].
  - apply bindr_Ok in Hx as (i & Hi & Hx). inversion Hx; subst. cbn [fst snd] in *.
    destruct IH as (IH1 & IH2 & IH3). split; [simpl; congruence|].
    apply raw_map_ok in Hi as (ms & Hms & Hp). split.
    + intros a b [Hin|Hin].
      * inversion Hin; subst. exists j, ms; split; [left; reflexivity|auto].
      * destruct (IH2 _ _ Hin) as (j' & ms' & ? & ? & ?). exists j', ms'; split; [right; assumption|auto].
    + intros a b [Hin|Hin].
      * inversion Hin; subst. exists inner, ms; split; [left; reflexivity|auto].
      * destruct (IH3 _ _ Hin) as (j' & ms' & ? & ? & ?). exists j', ms'; split; [right; assumption|auto].
Qed.

Notation json_unmarshal := (json_unmarshal E depth std zero assignable perm).
Notation decoded := (decoded E std zero).
Definition nest (s : sstruct) : nested := (match s with SStruct c _ => c end, json_unmarshal s).
Definition sound (s : sstruct) : Prop := forall ref t cur dat v, NoDup (keys ref) ->
  json_unmarshal s ref t cur dat = (v, Ok tt) -> decoded s ref t cur dat v.

Lemma decode_one_sound : forall ref s j t x, sound s -> NoDup (keys ref) -> no_impls ref ->
  decode_one ref (nest s) j = Ok (t, x) -> instance zero decoded ref s j t x.
Proof.
  intros ref s j t x Hs Hn Hi H. unfold DetModel.decode_one in H. apply bindr_Ok in H as (t' & Ht & H).
  cbn [fst snd nest] in H, Ht.
  destruct (json_unmarshal s ref t' (zero t') j) as [v r] eqn:Ej.
  apply bindr_Ok in H as ([] & -> & H). inversion H; subst. clear H.
  unfold get_ref in Ht. change (match s with SStruct c _ => c end) with (class_of s) in Ht.
  destruct (lookup (class_of s) ref) as [[u|l| |]|] eqn:El; try discriminate.
  - inversion Ht; subst. split; [exact El|]. apply Hs; assumption.
  - exfalso. eapply Hi; exact El.
Qed.

Lemma nest_value_single : forall s, nest_value E depth std zero assignable perm (VSingle s) = NSingle (nest s).
Proof. reflexivity. Qed.
Lemma nest_value_list : forall l, nest_value E depth std zero assignable perm (VList l) = NList (map nest l).
Proof. reflexivity. Qed.
Lemma nest_value_map : forall m, nest_value E depth std zero assignable perm (VMap m) =
  NMap (map (fun ks => (fst ks, nest (snd ks))) m).
Proof. reflexivity. Qed.
Lemma nest_value_map2 : forall m, nest_value E depth std zero assignable perm (VMap2 m) =
  NMap2 (map (fun km => (fst km, map (fun ks => (fst ks, nest (snd ks))) (snd km))) m).
Proof. reflexivity. Qed.

Definition nest_fields (om : list (string * svalue)) : list (string * nvalue) :=
  map (fun kv => (fst kv, nest_value E depth std zero assignable perm (snd kv))) om.

Lemma pointer_like_match : forall (A : Type) ft (a b : A),
  (pointer_like E ft /\ match under E ft with TIface _ | TPtr _ => a | _ => b end = a) \/
  (~ pointer_like E ft /\ match under E ft with TIface _ | TPtr _ => a | _ => b end = b).
Proof.
  intros A ft a b. unfold pointer_like. destruct (under E ft) eqn:Hu;
    try (right; split; [intros [[? ?]|[? ?]]; discriminate|reflexivity]).
  - left; eauto.
  - left; eauto.
Qed.

Lemma nth_or_first_nest : forall specs s0 k,
  exists s, nth_or_first (map nest (s0 :: specs)) (nest s0) k = nest s /\ picks_list (s0 :: specs) k s /\ In s (s0 :: specs).
Proof.
  intros specs s0 k. unfold nth_or_first. rewrite nth_error_map.
  destruct (nth_error (s0 :: specs) k) as [s|] eqn:En; cbn [option_map].
  - exists s. split; [reflexivity|]. split; [left; exact En|]. eapply nth_error_In; eauto.
  - exists s0. split; [reflexivity|]. split; [right; split; [apply nth_error_None; exact En|reflexivity]|]. left; reflexivity.
Qed.

(* The value the loop computes for one field. *)
Lemma field_result_sound : forall om ref x oj raw ft vt v,
  (forall k sv s, In (k, sv) om -> in_value s sv -> sound s) ->
  NoDup (keys ref) -> no_impls ref ->
  nf_kind x = kind_of E om (nf_field x) ->
  raw_field std zero perm x oj = Ok raw ->
  field_result E zero assignable ref (nest_fields om) x raw (Some ft) = Ok (vt, v) ->
  field_value E std zero decoded ref (lookup (fname (nf_field x)) om) (nf_field x) ft oj v.
Proof.
  intros om ref x oj raw ft vt v Hs Hn Hi Hk Hraw H. unfold field_result in H.
  unfold raw_field in Hraw. rewrite Hk in Hraw. unfold kind_of in Hraw. unfold nf_name in H.
  set (f := nf_field x) in *. unfold nest_fields in H. rewrite lookup_map_snd in H.
  destruct (lookup (fname f) om) as [sv|] eqn:El; cbn [option_map] in H.
  - apply lookup_In in El. destruct sv as [s|l|m|m].
    + (* single *)
      inversion Hraw; subst. rewrite nest_value_single in H. unfold handle_single in H.
      apply bindr_Ok in H as ([t y] & Hd & H). cbn [option_map] in H.
      eapply decode_one_sound in Hd; [|eapply Hs; [exact El|constructor]|exact Hn|exact Hi].
      destruct (pointer_like_match _ ft (Ok (TPtr t, XPtr t y)) (Ok (t, y))) as [[Hp Hm]|[Hp Hm]].
      * assert (Hv : v = XPtr t y).
        { destruct Hp as [[ms Hp]|[u Hp]]; rewrite Hp in H; inversion H; reflexivity. }
        subst v. eapply fv_single_ptr; eauto.
      * assert (Hv : v = y).
        { unfold pointer_like in Hp. destruct (under E ft); inversion H; try reflexivity; exfalso; apply Hp; eauto. }
        subst v. eapply fv_single_val; eauto.
    + (* list *)
      rewrite nest_value_list in H. apply bindr_Ok in H as (v' & H & Hv). inversion Hv; subst v' vt. clear Hv.
      unfold handle_list in H. destruct l as [|s0 l]; cbn [map] in H; [discriminate|].
      change (nest s0 :: map nest l) with (map nest (s0 :: l)) in H.
      destruct (under E (ftype f)) as [n|t|e|t|kt e|fs|ms|b] eqn:Hu; try discriminate;
        apply bindr_Ok in Hraw as (rr & Hrr & Hraw); inversion Hraw; subst raw; clear Hraw.
      * (* slice *)
        apply bindr_Ok in H as (r & Hr & H). inversion H; subst v.
        apply list_loop_ok in Hr as [Hlen Hel]. eapply fv_list with (js := rr); [reflexivity|exact Hu| |exact Hlen|].
        -- destruct oj as [[|b|n|s|l'|ms]|]; simpl in Hrr; try discriminate; inversion Hrr; subst; constructor.
        -- intros k j Hj. destruct (Hel k j Hj) as (t & y & Hd & Hnth).
           destruct (nth_or_first_nest l s0 (0 + k)) as (s & Hs0 & Hp & Hin). rewrite Hs0 in Hd.
           exists s, t, y. split; [exact Hp|]. split; [|exact Hnth].
           eapply decode_one_sound; [eapply Hs; [exact El|constructor; exact Hin]|exact Hn|exact Hi|exact Hd].
      * (* map *)
        apply bindr_Ok in H as (r & Hr & H). inversion H; subst v.
        apply raw_map_ok in Hrr as (ms & Hms & Hp).
        apply listmap_loop_ok in Hr as (H1 & H2 & H3 & H4); [|eapply perm_keys_nodup; exact Hp|constructor].
        eapply fv_listmap with (ms := ms) (order := keys rr); [reflexivity|exact Hu|exact Hms| | |exact H1| |].
        -- eapply perm_keys_nodup; exact Hp.
        -- intros k. eapply perm_keys_in; exact Hp.
        -- intros k. rewrite H2. simpl. rewrite <- (perm_keys_in _ _ _ k Hp). tauto.
        -- intros i k j Hnth He. unfold keys in Hnth. rewrite nth_error_map in Hnth.
           destruct (nth_error rr i) as [[k' j']|] eqn:Hi'; [|discriminate]. cbn in Hnth. inversion Hnth; subst k'.
           assert (j' = j) as ->.
           { apply nth_error_In in Hi'. rewrite (dedup_perm_in _ _ _ _ _ Hp) in Hi'.
             apply dedup_lookup in He, Hi'. congruence. }
           destruct (H4 _ _ _ Hi') as (t & y & Hd & Hl).
           destruct (nth_or_first_nest l s0 (0 + i)) as (s & Hs0 & Hpk & Hin). rewrite Hs0 in Hd.
           exists s, t, y. split; [exact Hpk|]. split; [|exact Hl].
           eapply decode_one_sound; [eapply Hs; [exact El|constructor; exact Hin]|exact Hn|exact Hi|exact Hd].
    + (* map *)
      rewrite nest_value_map in H. apply bindr_Ok in Hraw as (rr & Hrr & Hraw); inversion Hraw; subst raw; clear Hraw.
      apply bindr_Ok in H as (v' & H & Hv). inversion Hv; subst v' vt. clear Hv.
      unfold handle_map in H. rewrite first_map_snd in H.
      destruct (get_first_from_map m) as [first|] eqn:Hf; cbn [option_map] in H; [|discriminate].
      apply first_from_map in Hf as [kf Hf].
      destruct (under E (ftype f)) as [n|t|e|t|kt e|fs|ms|b] eqn:Hu; try discriminate.
      apply bindr_Ok in H as (r & Hr & H). inversion H; subst v.
      apply raw_map_ok in Hrr as (ms & Hms & Hp).
      apply map_loop_ok in Hr as (H1 & H2 & H3 & H4); [|eapply perm_keys_nodup; exact Hp|constructor].
      eapply fv_map with (ms := ms); [reflexivity|exact Hms|exact H1| |].
      * intros k. rewrite H2. simpl. rewrite <- (perm_keys_in _ _ _ k Hp). tauto.
      * intros k j He. apply (dedup_perm_in _ _ _ _ _ Hp) in He. destruct (H4 _ _ He) as (t & y & Hd & Hl).
        rewrite lookup_map_snd in Hd. destruct (lookup k m) as [s|] eqn:Hlk; cbn [option_map] in Hd.
        -- exists s, t, y. split; [left; exact Hlk|]. split; [|exact Hl].
           eapply decode_one_sound; [eapply Hs; [exact El|econstructor; eapply lookup_In; exact Hlk]|exact Hn|exact Hi|exact Hd].
        -- exists first, t, y. split; [right; split; [exact Hlk|eauto]|]. split; [|exact Hl].
           eapply decode_one_sound; [eapply Hs; [exact El|econstructor; eapply lookup_In; apply Hf]|exact Hn|exact Hi|exact Hd].
    + (* map2 *)
      rewrite nest_value_map2 in H. apply bindr_Ok in Hraw as (rr & Hrr & Hraw).
      apply bindr_Ok in Hraw as (m2 & Hm2 & Hraw); inversion Hraw; subst raw; clear Hraw.
      apply bindr_Ok in H as (v' & H & Hv). inversion Hv; subst v' vt. clear Hv.
      unfold handle_map2 in H.
      rewrite (first_map_snd _ _ (fun mm => map (fun ks : string * sstruct => (fst ks, nest (snd ks))) mm) m) in H.
      destruct (get_first_from_map m) as [firstms|] eqn:Hf; cbn [option_map] in H; [|discriminate].
      apply first_from_map in Hf as [kf Hf]. rewrite first_map_snd in H.
      destruct (get_first_from_map firstms) as [first|] eqn:Hff; cbn [option_map] in H; [|discriminate].
      apply first_from_map in Hff as [kff Hff].
      destruct (under E (ftype f)) as [n|t|e|t|kt e|fs|ms|b] eqn:Hu; try discriminate.
      apply bindr_Ok in H as (r & Hr & H). inversion H; subst v.
      apply raw_map_ok in Hrr as (ms & Hms & Hp).
      apply raw_map2_ok in Hm2 as (K1 & K2 & K3).
      apply map2_outer_ok in Hr as (H1 & H2 & H3 & H4);
        [|rewrite K1; eapply perm_keys_nodup; exact Hp
         |intros a inner Ha; destruct (K2 _ _ Ha) as (j & ms' & _ & _ & Hp'); eapply perm_keys_nodup; exact Hp'
         |constructor].
      eapply fv_map2 with (ms := ms); [reflexivity|exact Hms|exact H1| |].
      * intros a b. rewrite H2. split.
        -- intros [[]|(inner & Ha & Hb)]. destruct (K2 _ _ Ha) as (j & ms' & Hj & Hms' & Hp').
           exists j, ms'. split; [apply (dedup_perm_in _ _ _ _ _ Hp); exact Hj|]. split; [exact Hms'|].
           apply (perm_keys_in _ _ _ b Hp'); exact Hb.
        -- intros (j & ms' & Hj & Hms' & Hb). right. apply (dedup_perm_in _ _ _ _ _ Hp) in Hj.
           destruct (K3 _ _ Hj) as (inner & ms'' & Hin & Hms'' & Hp'). exists inner. split; [exact Hin|].
           rewrite (entries_fun _ _ _ Hms' Hms'') in Hb. apply (perm_keys_in _ _ _ b Hp'); exact Hb.
      * intros a j ms' b j' Ha Hms' Hb. apply (dedup_perm_in _ _ _ _ _ Hp) in Ha.
        destruct (K3 _ _ Ha) as (inner & ms'' & Hin & Hms'' & Hp').
        rewrite (entries_fun _ _ _ Hms' Hms'') in Hb. apply (dedup_perm_in _ _ _ _ _ Hp') in Hb.
        destruct (H4 _ _ _ _ Hin Hb) as (t & y & Hd & Hl).
        rewrite (lookup_map_snd _ _ (fun mm => map (fun ks : string * sstruct => (fst ks, nest (snd ks))) mm)) in Hd.
        assert (Hcase : exists mm, (lookup a m = Some mm \/ (lookup a m = None /\ exists k, smallest m k mm)) /\
          (exists k, In (k, mm) m) /\
          match option_map (fun mm => map (fun ks : string * sstruct => (fst ks, nest (snd ks))) mm) (lookup a m) with
          | Some s => s | None => map (fun ks : string * sstruct => (fst ks, nest (snd ks))) firstms end
          = map (fun ks : string * sstruct => (fst ks, nest (snd ks))) mm).
        { destruct (lookup a m) as [mm|] eqn:Hla; cbn [option_map].
          - exists mm. split; [auto|]. split; [exists a; apply lookup_In; exact Hla|reflexivity].
          - exists firstms. split; [right; split; [reflexivity|eauto]|]. split; [exists kf; apply lookup_In; apply Hf|reflexivity]. }
        destruct Hcase as (mm & Hmm & [kin Hkin] & Heq). rewrite Heq, lookup_map_snd in Hd.
        destruct (lookup b mm) as [s|] eqn:Hlb; cbn [option_map] in Hd.
        -- exists s, t, y. split; [exists mm; split; [exact Hmm|left; exact Hlb]|]. split; [|exact Hl].
           eapply decode_one_sound; [eapply Hs; [exact El|econstructor; [exact Hkin|eapply lookup_In; exact Hlb]]|exact Hn|exact Hi|exact Hd].
        -- exists first, t, y. split; [exists mm; split; [exact Hmm|right; split; [exact Hlb|exists kf, firstms, kff; auto]]|].
           split; [|exact Hl].
           eapply decode_one_sound; [eapply Hs; [exact El|econstructor; [eapply lookup_In; apply Hf|eapply lookup_In; apply Hff]]|exact Hn|exact Hi|exact Hd].
  - destruct oj as [j|].
    + destruct (std (ftype f) (zero (ftype f)) (Some j)) as [w r] eqn:Ew. apply bindr_Ok in Hraw as ([] & -> & Hraw).
      inversion Hraw; subst. inversion H; subst. eapply fv_plain; eauto.
    + inversion Hraw; subst. inversion H; subst. apply fv_absent; reflexivity.
Qed.

(* ---------------------------------------------------------- the loop over fields *)

Lemma fields_step_ok : forall fs ref specs xs cur v,
  fields_step E depth zero assignable [([], fs)] ref specs xs cur = (v, Ok tt) ->
  NoDup (map (fun xr => nf_name (fst xr)) xs) ->
  (forall x raw, In (x, raw) xs -> exists q ft vt w, field_by_name E depth (nf_name x) [([], fs)] = Some (q, ft) /\
     field_result E zero assignable ref specs x raw (Some ft) = Ok (vt, w) /\ fields_of v q = w) /\
  (forall q, (forall x raw ft, In (x, raw) xs -> field_by_name E depth (nf_name x) [([], fs)] <> Some (q, ft)) ->
     fields_of v q = fields_of cur q).
Proof.
  intros fs ref specs xs; induction xs as [|[x raw] xs IH]; intros cur v H Hnd.
  - inversion H; subst. split; [intros x raw []|reflexivity].
  - cbn [fields_step] in H. inversion Hnd as [|? ? Hnot Hnd']; subst.
    destruct (field_step E depth zero assignable [([], fs)] ref specs x raw cur) as [cur' r] eqn:Hst.
    destruct r as [[]|e|p]; [|discriminate|discriminate].
    unfold field_step in Hst.
    destruct (field_by_name E depth (nf_name x) [([], fs)]) as [[q ft]|] eqn:Hfb; cbn [option_map snd] in Hst.
    2:{ destruct (field_result _ _ _ _ _ _ _ _) as [[vt w]|e|p]; simpl in Hst; inversion Hst. }
    destruct (field_result E zero assignable ref specs x raw (Some ft)) as [[vt w]|e|p] eqn:Hfr; cbn [bindr] in Hst; try (inversion Hst; fail).
    unfold set_field in Hst. cbn [fst snd] in Hst. destruct (assignable vt ft); inversion Hst; subst cur'. clear Hst.
    apply IH in H as [H1 H2]; [|exact Hnd']. split.
    + intros x' raw' [Heq|Hin]; [|eauto]. inversion Heq; subst. exists q, ft, vt, w.
      split; [exact Hfb|]. split; [exact Hfr|]. rewrite H2; [apply fields_upd_eq|].
      intros y rawy fty Hy Hyq. apply Hnot. apply in_map_iff. exists (y, rawy). split; [|exact Hy]. simpl.
      apply field_by_name_selects in Hfb, Hyq. eapply selects_name; eauto.
    + intros q' Hq'. rewrite H2 by (intros y rawy fty Hy; eapply Hq'; right; exact Hy).
      apply fields_upd_ne. intros ->. eapply Hq'; [left; reflexivity|exact Hfb].
Qed.

Lemma has_dup_false : forall l, has_dup l = false -> NoDup l.
Proof.
  induction l as [|x l IH]; intros H; [constructor|]. simpl in H. apply orb_false_iff in H as [H1 H2].
  constructor; [|auto]. intros Hin. assert (existsb (String.eqb x) l = true); [|congruence].
  apply existsb_exists. exists x. split; [exact Hin|apply String.eqb_refl].
Qed.

Lemma combine_in : forall A B (R : A -> B -> Prop) l l', Forall2 R l l' ->
  (forall a, In a l -> exists b, In (a, b) (combine l l') /\ R a b) /\ (forall a b, In (a, b) (combine l l') -> In a l /\ R a b).
Proof.
  intros A B R l l' H; induction H as [|a b l l' Hab H [IH1 IH2]]; simpl.
  - split; intros; contradiction.
  - split.
    + intros x [->|Hx]; [exists b; auto|]. destruct (IH1 _ Hx) as (y & Hy & HR). exists y; auto.
    + intros x y [Heq|Hin]; [inversion Heq; subst; auto|]. destruct (IH2 _ _ Hin); auto.
Qed.

Lemma combine_fst : forall A B (R : A -> B -> Prop) l l', Forall2 R l l' -> map fst (combine l l') = l.
Proof. intros A B R l l' H; induction H; simpl; congruence. Qed.

Lemma raw_struct_ok : forall om nfs dat raws, raw_struct E std zero perm om nfs dat = Ok raws ->
  exists ms, members dat ms /\
    Forall2 (fun x r => raw_field std zero perm x (jget E om (map nf_field nfs) (nf_field x) ms) = Ok r) nfs raws.
Proof.
  intros om nfs dat raws H. destruct dat as [[|b|n|s|l|m]|]; simpl in H; try discriminate.
  - exists []. split; [constructor|]. apply mapr_Forall2 in H. exact H.
  - exists m. split; [constructor|]. apply mapr_Forall2 in H. exact H.
Qed.

Theorem unmarshal_sound : forall s, sound s.
Proof.
  apply sstruct_induction. intros c fo IH ref t cur dat v Hnd H.
  destruct fo as [[|kv om]|]; cbn [DetModel.json_unmarshal] in H; try (apply dec_std; auto; fail).
  remember (kv :: om) as om' eqn:Hom. fold (nest_fields om') in H.
  assert (Hne : om' <> []) by (subst; discriminate). clear Hom kv om. rename om' into om.
  unfold with_spec in H. destruct (collect E (implementations ref) depth (TPtr t) []) as [auto|] eqn:Hc; [|discriminate].
  destruct (merge_spec E depth ref t auto Hnd Hc) as [Hm Hmn].
  destruct (under E t) as [n|u|u|u|k u|fs|ms|b] eqn:Hu; try discriminate.
  destruct (loop_fields E depth om [] fs) as [nfs|] eqn:Hl; [|discriminate].
  destruct (has_dup (map nf_name nfs)) eqn:Hdup; [discriminate|].
  destruct (raw_struct E std zero perm om nfs dat) as [raws|e|p] eqn:Hr; try discriminate.
  apply loop_fields_flat in Hl as (l & Hflat & Hnfs). simpl in Hnfs.
  apply raw_struct_ok in Hr as (ms & Hms & Hraws).
  apply has_dup_false in Hdup.
  assert (Hnames : map (fun xr => nf_name (fst xr)) (combine nfs raws) = map nf_name nfs).
  { rewrite <- (combine_fst _ _ _ _ _ Hraws) at 2. rewrite map_map. reflexivity. }
  apply fields_step_ok in H as [H1 H2]; [|rewrite Hnames; exact Hdup].
  assert (Hfields : map nf_field nfs = map snd l) by (rewrite Hnfs, map_map; reflexivity).
  destruct (combine_in _ _ _ _ _ Hraws) as [Hc1 Hc2].
  assert (Hin : forall p f, In (p, f) l -> In (NF f p (kind_of E om f)) nfs).
  { intros p f Hpf. rewrite Hnfs. apply in_map_iff. exists (p, f). auto. }
  eapply dec_spec with (fs := fs) (l := l) (ms := ms); [exact Hne|exact Hm|exact Hu|exact Hflat|exact Hms| |].
  - intros p f Hpf. apply Hin in Hpf. destruct (Hc1 _ Hpf) as (raw & Hraw & Hrf).
    destruct (H1 _ _ Hraw) as (q & ft & vt & w & Hq & Hfr & Hw). exists q, ft.
    split; [eapply field_by_name_selects; exact Hq|]. rewrite Hw. rewrite <- Hfields.
    refine (field_result_sound om (merge auto ref) (NF f p (kind_of E om f)) _ raw ft vt w _ Hmn _ _ Hrf Hfr).
    + intros k sv s Hk Hsv. eapply IH; [reflexivity|exact Hk|exact Hsv].
    + eapply merged_no_impls; exact Hm.
    + reflexivity.
  - intros q Hq. apply H2. intros x raw ft Hx Hfb. apply Hc2 in Hx as [Hx _]. rewrite Hnfs in Hx.
    apply in_map_iff in Hx as ([p f] & Hpf & Hin'). subst x. eapply Hq; [exact Hin'|].
    eapply field_by_name_selects; exact Hfb.
Qed.

End Sound.

Lemma merge_explicit : forall auto ref c r, NoDup (keys ref) ->
  lookup c ref = Some r -> (forall l, r <> RImpls l) -> lookup c (merge auto ref) = Some r.
Proof.
  intros auto ref c r Hnd Hl Hr. unfold merge. fold (auto_ref auto). fold (merge_into ref (auto_ref auto)).
  rewrite merge_lookup by exact Hnd. rewrite Hl. destruct r as [t|i| |]; try reflexivity. exfalso; eapply Hr; reflexivity.
Qed.

Lemma merge_discovered : forall auto ref c, NoDup (keys ref) ->
  (lookup c ref = None \/ exists l, lookup c ref = Some (RImpls l)) ->
  lookup c (merge auto ref) = option_map (fun n => RPtrTo (TNamed n)) (lookup c auto).
Proof.
  intros auto ref c Hnd Hl. unfold merge. fold (auto_ref auto). fold (merge_into ref (auto_ref auto)).
  rewrite merge_lookup by exact Hnd.
  assert (Ha : lookup c (auto_ref auto) = option_map (fun n => RPtrTo (TNamed n)) (lookup c auto))
    by apply (lookup_map_snd _ _ (fun n => RPtrTo (TNamed n)) auto).
  destruct Hl as [->|[l ->]]; exact Ha.
Qed.
