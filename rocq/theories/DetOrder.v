(* The result of the model of JsonUnmarshal does not depend on map iteration order, except
   for list specs with several entries on map fields. *)

From Verif Require Import Base GoType SpecModel CollectModel CollectSpec CollectProofs DetModel DetSpec DetProofs DetSound.

Fixpoint gval_rect' (P : gval -> Prop)
  (Ho : forall s, P (XOpaque s)) (Hs : forall o, (forall q, P (o q)) -> P (XStruct o))
  (Hp : forall t v, P v -> P (XPtr t v)) (Hl : forall l, Forall P l -> P (XSlice l))
  (Hm : forall m, Forall (fun kv => P (snd kv)) m -> P (XMap m))
  (Hm2 : forall m, Forall (fun kv => P (snd kv)) m -> P (XMap2 m)) (v : gval) {struct v} : P v.
Proof.
  pose proof (gval_rect' P Ho Hs Hp Hl Hm Hm2) as IH.
  destruct v as [s|o|t v|l|m|m].
  - apply Ho.
  - apply Hs. intros q; apply IH.
  - apply Hp; apply IH.
  - apply Hl. induction l as [|a l IHl]; constructor; [apply IH|exact IHl].
  - apply Hm. induction m as [|[k a] m IHm]; constructor; [apply IH|exact IHm].
  - apply Hm2. induction m as [|[k a] m IHm]; constructor; [apply IH|exact IHm].
Defined.

Lemma same_val_refl : forall v, same_val v v.
Proof.
  apply gval_rect'; intros.
  - constructor.
  - constructor; assumption.
  - constructor; assumption.
  - constructor. induction H; constructor; assumption.
  - constructor; [tauto|]. intros k v v' H1 H2. rewrite H1 in H2; inversion H2; subst v'.
    apply lookup_In in H1. rewrite Forall_forall in H. exact (H _ H1).
  - constructor; [tauto|]. intros k v v' H1 H2. rewrite H1 in H2; inversion H2; subst v'.
    apply lookup_In in H1. rewrite Forall_forall in H. exact (H _ H1).
Qed.

Section Loops.
Variable zero : gtype -> gval.
Variable assignable : gtype -> gtype -> bool.

Notation decode_one := (decode_one zero).

(* Success of one element, with the type of the instance. *)
Definition elem_ok (ref : refmap) (et : gtype) (ns : nested) (j : json) : Prop :=
  exists t x, decode_one ref ns (Some j) = Ok (t, x) /\ assignable (TPtr t) et = true.

Lemma map_loop_elem : forall ref kt et specs first raw acc r,
  map_loop zero assignable ref kt et specs first raw acc = Ok r ->
  (raw = [] \/ assignable (TBasic "string") kt = true) /\
  forall k j, In (k, j) raw -> elem_ok ref et (match lookup k specs with Some s => s | None => first end) j.
Proof.
  intros ref kt et specs first raw; induction raw as [|[k0 j0] raw IH]; intros acc r H.
  - split; [auto|]. intros k j [].
  - cbn [map_loop] in H. apply bindr_Ok in H as ([t x] & Hd & H).
    destruct (_ && _) eqn:Ha; [|discriminate]. apply andb_true_iff in Ha as [Ha1 Ha2].
    apply IH in H as [_ H]. split; [auto|]. intros k j [Hin|Hin]; [|auto].
    inversion Hin; subst. exists t, x; auto.
Qed.

Lemma map_loop_total : forall ref kt et specs first raw acc,
  (raw = [] \/ assignable (TBasic "string") kt = true) ->
  (forall k j, In (k, j) raw -> elem_ok ref et (match lookup k specs with Some s => s | None => first end) j) ->
  exists r, map_loop zero assignable ref kt et specs first raw acc = Ok r.
Proof.
  intros ref kt et specs first raw; induction raw as [|[k0 j0] raw IH]; intros acc Hk He; [eexists; reflexivity|].
  destruct Hk as [Hk|Hk]; [discriminate|]. cbn [map_loop].
  destruct (He k0 j0) as (t & x & Hd & Ha); [left; reflexivity|]. rewrite Hd. cbn [bindr]. rewrite Hk, Ha. cbn [andb].
  apply IH; [auto|]. intros k j Hin. apply He; right; exact Hin.
Qed.

Lemma listmap_loop_elem : forall ref kt et specs first raw i0 acc r,
  listmap_loop zero assignable ref kt et specs first i0 raw acc = Ok r ->
  (raw = [] \/ assignable (TBasic "string") kt = true) /\
  forall i k j, nth_error raw i = Some (k, j) -> elem_ok ref et (nth_or_first specs first (i0 + i)) j.
Proof.
  intros ref kt et specs first raw; induction raw as [|[k0 j0] raw IH]; intros i0 acc r H.
  - split; [auto|]. intros [|i] k j Hn; discriminate.
  - cbn [listmap_loop] in H. apply bindr_Ok in H as ([t x] & Hd & H).
    destruct (_ && _) eqn:Ha; [|discriminate]. apply andb_true_iff in Ha as [Ha1 Ha2].
    apply IH in H as [_ H]. split; [auto|]. intros [|i] k j Hin.
    + inversion Hin; subst. rewrite Nat.add_0_r. exists t, x; auto.
    + replace (i0 + S i) with (S i0 + i) by lia. eapply H; exact Hin.
Qed.

Lemma listmap_loop_total : forall ref kt et specs first raw i0 acc,
  (raw = [] \/ assignable (TBasic "string") kt = true) ->
  (forall i k j, nth_error raw i = Some (k, j) -> elem_ok ref et (nth_or_first specs first (i0 + i)) j) ->
  exists r, listmap_loop zero assignable ref kt et specs first i0 raw acc = Ok r.
Proof.
  intros ref kt et specs first raw; induction raw as [|[k0 j0] raw IH]; intros i0 acc Hk He; [eexists; reflexivity|].
  destruct Hk as [Hk|Hk]; [discriminate|]. cbn [listmap_loop].
  destruct (He 0 k0 j0) as (t & x & Hd & Ha); [reflexivity|]. rewrite Nat.add_0_r in Hd.
  rewrite Hd. cbn [bindr]. rewrite Hk, Ha. cbn [andb].
  apply IH; [auto|]. intros i k j Hin. replace (S i0 + i) with (i0 + S i) by lia. eapply He; exact Hin.
Qed.

Lemma list_loop_elem : forall ref et specs first raw i0 r,
  list_loop zero assignable ref et specs first i0 raw = Ok r ->
  forall i j, nth_error raw i = Some j -> elem_ok ref et (nth_or_first specs first (i0 + i)) j.
Proof.
  intros ref et specs first raw; induction raw as [|j0 raw IH]; intros i0 r H.
  - intros [|i] j Hn; discriminate.
  - cbn [list_loop] in H. apply bindr_Ok in H as ([t x] & Hd & H).
    destruct (assignable (TPtr t) et) eqn:Ha; [|discriminate]. apply bindr_Ok in H as (l & H & _).
    intros [|i] j Hin.
    + inversion Hin; subst. rewrite Nat.add_0_r. exists t, x; auto.
    + replace (i0 + S i) with (S i0 + i) by lia. eapply IH; [exact H|exact Hin].
Qed.

Lemma list_loop_total : forall ref et specs first raw i0,
  (forall i j, nth_error raw i = Some j -> elem_ok ref et (nth_or_first specs first (i0 + i)) j) ->
  exists r, list_loop zero assignable ref et specs first i0 raw = Ok r.
Proof.
  intros ref et specs first raw; induction raw as [|j0 raw IH]; intros i0 He; [eexists; reflexivity|].
  cbn [list_loop].
  destruct (He 0 j0) as (t & x & Hd & Ha); [reflexivity|]. rewrite Nat.add_0_r in Hd.
  rewrite Hd. cbn [bindr]. rewrite Ha. destruct (IH (S i0)) as [l Hl].
  { intros i j Hin. replace (S i0 + i) with (i0 + S i) by lia. eapply He; exact Hin. }
  rewrite Hl. eexists; reflexivity.
Qed.

Lemma map2_inner_elem : forall ref kt et specs first key0 raw acc r,
  map2_inner zero assignable ref kt et specs first key0 raw acc = Ok r ->
  forall k j, In (k, j) raw -> assignable (TArray (TBasic "string")) kt = true /\
    elem_ok ref et (match lookup k specs with Some s => s | None => first end) j.
Proof.
  intros ref kt et specs first key0 raw; induction raw as [|[k0 j0] raw IH]; intros acc r H.
  - intros k j [].
  - cbn [map2_inner] in H. apply bindr_Ok in H as ([t x] & Hd & H).
    destruct (_ && _) eqn:Ha; [|discriminate]. apply andb_true_iff in Ha as [Ha1 Ha2].
    intros k j [Hin|Hin]; [|eapply IH; eauto]. inversion Hin; subst. split; [exact Ha1|]. exists t, x; auto.
Qed.

Lemma map2_inner_total : forall ref kt et specs first key0 raw acc,
  (forall k j, In (k, j) raw -> assignable (TArray (TBasic "string")) kt = true /\
    elem_ok ref et (match lookup k specs with Some s => s | None => first end) j) ->
  exists r, map2_inner zero assignable ref kt et specs first key0 raw acc = Ok r.
Proof.
  intros ref kt et specs first key0 raw; induction raw as [|[k0 j0] raw IH]; intros acc He; [eexists; reflexivity|].
  cbn [map2_inner]. destruct (He k0 j0) as (Hk & t & x & Hd & Ha); [left; reflexivity|].
  rewrite Hd. cbn [bindr]. rewrite Hk, Ha. cbn [andb]. apply IH. intros k j Hin. apply He; right; exact Hin.
Qed.

Lemma map2_outer_elem : forall ref kt et specs firstms first raw acc r,
  map2_outer zero assignable ref kt et specs firstms first raw acc = Ok r ->
  forall a m b j, In (a, m) raw -> In (b, j) m -> assignable (TArray (TBasic "string")) kt = true /\
    elem_ok ref et (match lookup b (match lookup a specs with Some s => s | None => firstms end) with
                    | Some s => s | None => first end) j.
Proof.
  intros ref kt et specs firstms first raw; induction raw as [|[k0 m0] raw IH]; intros acc r H.
  - intros a m b j [].
  - cbn [map2_outer] in H. apply bindr_Ok in H as (acc' & Hd & H).
    intros a m b j [Hin|Hin] Hb; [|eapply IH; eauto]. inversion Hin; subst. eapply map2_inner_elem; eauto.
Qed.

Lemma map2_outer_total : forall ref kt et specs firstms first raw acc,
  (forall a m b j, In (a, m) raw -> In (b, j) m -> assignable (TArray (TBasic "string")) kt = true /\
    elem_ok ref et (match lookup b (match lookup a specs with Some s => s | None => firstms end) with
                    | Some s => s | None => first end) j) ->
  exists r, map2_outer zero assignable ref kt et specs firstms first raw acc = Ok r.
Proof.
  intros ref kt et specs firstms first raw; induction raw as [|[k0 m0] raw IH]; intros acc He; [eexists; reflexivity|].
  cbn [map2_outer].
  destruct (map2_inner_total ref kt et (match lookup k0 specs with Some s => s | None => firstms end) first k0 m0 acc) as [acc' Ha].
  { intros k j Hin. eapply He; [left; reflexivity|exact Hin]. }
  rewrite Ha. cbn [bindr]. apply IH. intros a m b j Hin. apply He. right; exact Hin.
Qed.

End Loops.

Section Order.
Variable E : env.
Variable depth : nat.
Variable std : gtype -> gval -> option json -> gval * result unit.
Variable zero : gtype -> gval.
Variable assignable : gtype -> gtype -> bool.
Variables perm perm' : list (string * json) -> list (string * json).
Hypothesis Hperm : forall m, Permutation (perm m) m.
Hypothesis Hperm' : forall m, Permutation (perm' m) m.

Notation ju := (json_unmarshal E depth std zero assignable perm).
Notation ju' := (json_unmarshal E depth std zero assignable perm').
Notation nst := (nest E depth std zero assignable perm).
Notation nst' := (nest E depth std zero assignable perm').

(* Both orders give the same result. *)
Definition agrees (s : sstruct) : Prop := forall ref t cur dat v, NoDup (keys ref) -> order_free E s ref t ->
  ju s ref t cur dat = (v, Ok tt) -> exists v', ju' s ref t cur dat = (v', Ok tt) /\ same_val v v'.

(* Both nested decoders succeed alike on the same text. *)
Definition alike (ref : refmap) (ns ns' : nested) : Prop := forall oj t x,
  decode_one zero ref ns oj = Ok (t, x) -> exists x', decode_one zero ref ns' oj = Ok (t, x') /\ same_val x x'.

Lemma agrees_alike : forall ref s, NoDup (keys ref) -> no_impls ref -> agrees s ->
  (forall t, lookup (class_of s) ref = Some (RPtrTo t) -> order_free E s ref t) -> alike ref (nst s) (nst' s).
Proof.
  intros ref s Hnd Hni Hs Hof oj t x H. unfold decode_one in *. cbn [fst snd nest] in *.
  apply bindr_Ok in H as (t' & Ht & H).
  destruct (ju s ref t' (zero t') oj) as [y r] eqn:Ey. apply bindr_Ok in H as ([] & -> & H). inversion H; subst.
  change (match s with SStruct c _ => c end) with (class_of s) in *.
  assert (Hl : lookup (class_of s) ref = Some (RPtrTo t)).
  { unfold get_ref in Ht. destruct (lookup (class_of s) ref) as [[u|l| |]|] eqn:El; try discriminate.
    - inversion Ht; reflexivity.
    - exfalso; eapply Hni; exact El. }
  rewrite Ht. cbn [bindr]. apply Hs in Ey as (y' & Hy' & Hsame); [|exact Hnd|apply Hof; exact Hl].
  rewrite Hy'. cbn [bindr]. eauto.
Qed.

Lemma alike_elem : forall ref et ns ns' j, alike ref ns ns' -> elem_ok zero assignable ref et ns j ->
  elem_ok zero assignable ref et ns' j.
Proof.
  intros ref et ns ns' j Ha (t & x & Hd & Has). destruct (Ha _ _ _ Hd) as (x' & Hd' & _). exists t, x'; auto.
Qed.

Inductive raw_rel : rawval -> rawval -> Prop :=
| rr_plain : forall v, raw_rel (RVPlain v) (RVPlain v)
| rr_raw : forall j, raw_rel (RVRaw j) (RVRaw j)
| rr_list : forall l, raw_rel (RVList l) (RVList l)
| rr_map : forall m m', Permutation m m' -> NoDup (keys m) -> raw_rel (RVMap m) (RVMap m')
| rr_map2 : forall m m', NoDup (keys m) -> NoDup (keys m') ->
    (forall a i, In (a, i) m -> NoDup (keys i) /\ exists i', In (a, i') m' /\ Permutation i i') ->
    (forall a i', In (a, i') m' -> NoDup (keys i') /\ exists i, In (a, i) m /\ Permutation i i') ->
    raw_rel (RVMap2 m) (RVMap2 m').

Lemma raw_map_rel : forall oj m, raw_map perm oj = Ok m -> exists m', raw_map perm' oj = Ok m' /\ Permutation m m' /\ NoDup (keys m).
Proof.
  intros oj m H. destruct oj as [[|b|n|s|l|ms]|]; simpl in H |- *; try discriminate; inversion H; subst.
  - exists []. repeat split; constructor.
  - exists (perm' (dedup ms)). split; [reflexivity|]. split.
    + rewrite Hperm, Hperm'. reflexivity.
    + eapply perm_keys_nodup; apply Hperm.
  - exists []. repeat split; constructor.
Qed.

Lemma mapr_all : forall A B (f : A -> result B) l, (forall a, In a l -> exists b, f a = Ok b) -> exists r, mapr f l = Ok r.
Proof.
  intros A B f l; induction l as [|a l IH]; intros H; simpl; [eauto|].
  destruct (H a) as [b Hb]; [left; reflexivity|]. destruct IH as [r Hr]; [intros; apply H; right; assumption|].
  rewrite Hb, Hr. simpl. eauto.
Qed.

Lemma forall2_in_l : forall A B (R : A -> B -> Prop) l l' a, Forall2 R l l' -> In a l -> exists b, In b l' /\ R a b.
Proof.
  intros A B R l l' a H; induction H as [|x y l l' Hxy H IH]; intros Hin; [contradiction|].
  destruct Hin as [->|Hin]; [exists y; split; [left; reflexivity|exact Hxy]|].
  destruct (IH Hin) as (b & Hb & HR). exists b; split; [right; exact Hb|exact HR].
Qed.

Lemma forall2_in_r : forall A B (R : A -> B -> Prop) l l' b, Forall2 R l l' -> In b l' -> exists a, In a l /\ R a b.
Proof.
  intros A B R l l' b H; induction H as [|x y l l' Hxy H IH]; intros Hin; [contradiction|].
  destruct Hin as [->|Hin]; [exists x; split; [left; reflexivity|exact Hxy]|].
  destruct (IH Hin) as (a & Ha & HR). exists a; split; [right; exact Ha|exact HR].
Qed.

Lemma raw_field_rel : forall x oj raw, raw_field std zero perm x oj = Ok raw ->
  exists raw', raw_field std zero perm' x oj = Ok raw' /\ raw_rel raw raw'.
Proof.
  intros x oj raw H. unfold raw_field in *. destruct (nf_kind x).
  - exists raw. split; [exact H|]. destruct oj as [j|].
    + destruct (std _ _ _) as [v r]. apply bindr_Ok in H as (u & _ & H). inversion H; constructor.
    + inversion H; constructor.
  - inversion H; subst. eexists; split; [reflexivity|constructor].
  - apply bindr_Ok in H as (l & Hl & H). inversion H; subst. rewrite Hl. eexists; split; [reflexivity|constructor].
  - apply bindr_Ok in H as (m & Hm & H). inversion H; subst. apply raw_map_rel in Hm as (m' & Hm' & Hp & Hn).
    rewrite Hm'. eexists; split; [reflexivity|constructor; assumption].
  - apply bindr_Ok in H as (m & Hm & H). apply bindr_Ok in H as (m2 & Hm2 & H). inversion H; subst. clear H.
    apply raw_map_rel in Hm as (m' & Hm' & Hp & Hn). rewrite Hm'. cbn [bindr].
    pose proof Hm2 as Hf. apply mapr_Forall2 in Hf.
    destruct (mapr_all _ _ (fun kj : string * json => do inner <- raw_map perm' (Some (snd kj)); Ok (fst kj, inner)) m') as [m2' Hm2'].
    { intros [a j] Hin. apply (Permutation_in _ (Permutation_sym Hp)) in Hin.
      destruct (forall2_in_l _ _ _ _ _ _ Hf Hin) as (b & _ & Hb). cbn [fst snd] in *.
      apply bindr_Ok in Hb as (i & Hi & _). apply raw_map_rel in Hi as (i' & Hi' & _). rewrite Hi'. simpl; eauto. }
    rewrite Hm2'. eexists; split; [reflexivity|]. pose proof Hm2' as Hf'. apply mapr_Forall2 in Hf'.
    assert (Hk : keys m2 = keys m) by (eapply raw_map2_ok; [exact Hperm|exact Hm2]).
    assert (Hk' : keys m2' = keys m') by (eapply raw_map2_ok; [exact Hperm'|exact Hm2']).
    assert (Hn' : NoDup (keys m')) by (eapply Permutation_NoDup; [apply (Permutation_map fst Hp)|exact Hn]).
    constructor; [rewrite Hk; exact Hn|rewrite Hk'; exact Hn'| |].
    + intros a i Hin. destruct (forall2_in_r _ _ _ _ _ _ Hf Hin) as ([a' j] & Hj & HR). cbn [fst snd] in HR.
      apply bindr_Ok in HR as (i0 & Hi0 & HR). inversion HR; subst a' i0.
      apply raw_map_rel in Hi0 as (i' & Hi' & Hpi & Hni). split; [exact Hni|].
      apply (Permutation_in _ Hp) in Hj. destruct (forall2_in_l _ _ _ _ _ _ Hf' Hj) as ([a2 i2] & Hin2 & HR2).
      cbn [fst snd] in HR2. rewrite Hi' in HR2. inversion HR2; subst. exists i2; auto.
    + intros a i' Hin. destruct (forall2_in_r _ _ _ _ _ _ Hf' Hin) as ([a' j] & Hj & HR). cbn [fst snd] in HR.
      apply bindr_Ok in HR as (i0 & Hi0 & HR). inversion HR; subst a' i0.
      apply (Permutation_in _ (Permutation_sym Hp)) in Hj.
      destruct (forall2_in_l _ _ _ _ _ _ Hf Hj) as ([a2 i2] & Hin2 & HR2).
      cbn [fst snd] in HR2. apply bindr_Ok in HR2 as (i3 & Hi3 & HR2). inversion HR2; subst.
      destruct (raw_map_rel _ _ Hi3) as (i4 & Hi4 & Hpi & Hni). rewrite Hi0 in Hi4. inversion Hi4; subst.
      split; [eapply Permutation_NoDup; [apply (Permutation_map fst Hpi)|exact Hni]|]. eauto.
Qed.

Lemma result_same_map : forall ref specs specs' first first' raw raw' r r',
  NoDup (keys raw) -> Permutation raw raw' ->
  (forall k, alike ref (match lookup k specs with Some s => s | None => first end)
                       (match lookup k specs' with Some s => s | None => first' end)) ->
  (forall k, In k (keys r) <-> In k (keys ([] : list (string * gval))) \/ In k (keys raw)) ->
  (forall k j, In (k, j) raw -> exists t x,
     decode_one zero ref (match lookup k specs with Some s => s | None => first end) (Some j) = Ok (t, x) /\
     lookup k r = Some (XPtr t x)) ->
  (forall k, In k (keys r') <-> In k (keys ([] : list (string * gval))) \/ In k (keys raw')) ->
  (forall k j, In (k, j) raw' -> exists t x,
     decode_one zero ref (match lookup k specs' with Some s => s | None => first' end) (Some j) = Ok (t, x) /\
     lookup k r' = Some (XPtr t x)) ->
  same_val (XMap r) (XMap r').
Proof.
  intros ref specs specs' first first' raw raw' r r' Hnd Hp Hal K L K' L'. constructor.
  - intros k. rewrite K, K'. simpl. split; intros [[]|Hin]; right.
    + eapply Permutation_in; [apply (Permutation_map fst Hp)|exact Hin].
    + eapply Permutation_in; [apply Permutation_sym, (Permutation_map fst Hp)|exact Hin].
  - intros k v v' Hv Hv'.
    assert (Hk : In k (keys raw)).
    { assert (Hk : In k (keys r)) by (apply lookup_Some_key; eauto). apply K in Hk as [[]|Hk]; exact Hk. }
    apply lookup_Some_key in Hk as [j Hj]. apply lookup_In in Hj.
    destruct (L _ _ Hj) as (t & x & Hd & Hl). destruct (Hal k _ _ _ Hd) as (x' & Hd' & Hs).
    destruct (L' _ _ (Permutation_in _ Hp Hj)) as (t2 & x2 & Hd2 & Hl2).
    rewrite Hd' in Hd2. inversion Hd2; subst. rewrite Hl in Hv. rewrite Hl2 in Hv'. inversion Hv; inversion Hv'; subst.
    constructor; exact Hs.
Qed.

(* One field. *)
Lemma field_result_rel : forall om ref x raw raw' ft vt v,
  (forall sv s, lookup (fname (nf_field x)) om = Some sv -> in_value s sv -> alike ref (nst s) (nst' s)) ->
  (forall specs kt e, lookup (fname (nf_field x)) om = Some (VList specs) -> under E (ftype (nf_field x)) = TMap kt e ->
     length specs <= 1) ->
  raw_rel raw raw' ->
  field_result E zero assignable ref (nest_fields E depth std zero assignable perm om) x raw (Some ft) = Ok (vt, v) ->
  exists v', field_result E zero assignable ref (nest_fields E depth std zero assignable perm' om) x raw' (Some ft) = Ok (vt, v') /\
    same_val v v'.
Proof.
  intros om ref x raw raw' ft vt v Hal Hlen Hraw H. unfold field_result in *. unfold nest_fields in *. unfold nf_name in *.
  rewrite lookup_map_snd in H. rewrite lookup_map_snd. set (f := nf_field x) in *.
  destruct (lookup (fname f) om) as [sv|] eqn:El; cbn [option_map] in *.
  - destruct sv as [s|l|m|m].
    + rewrite nest_value_single in *. destruct Hraw; try discriminate. unfold handle_single in *.
      apply bindr_Ok in H as ([t y] & Hd & H).
      destruct (Hal (VSingle s) s eq_refl (iv_single s) _ _ _ Hd) as (y' & Hd' & Hs). rewrite Hd'. cbn [bindr option_map] in *.
      destruct (under E ft); inversion H; subst; eexists; (split; [reflexivity|]); try exact Hs; constructor; exact Hs.
    + rewrite nest_value_list in *. apply bindr_Ok in H as (v' & H & Hv). inversion Hv; subst v' vt. clear Hv.
      unfold handle_list in *. destruct l as [|s0 l]; cbn [map] in *; [discriminate|].
      change (nst s0 :: map nst l) with (map nst (s0 :: l)) in H.
      change (nst' s0 :: map nst' l) with (map nst' (s0 :: l)).
      assert (Hnth : forall i, alike ref (nth_or_first (map nst (s0 :: l)) (nst s0) i) (nth_or_first (map nst' (s0 :: l)) (nst' s0) i)).
      { intros i. unfold nth_or_first. rewrite !nth_error_map. destruct (nth_error (s0 :: l) i) as [s|] eqn:En; cbn [option_map].
        - apply (Hal (VList (s0 :: l))); [reflexivity|constructor]. eapply nth_error_In; exact En.
        - apply (Hal (VList (s0 :: l))); [reflexivity|constructor]. left; reflexivity. }
      destruct (under E (ftype f)) as [n|t|e|t|kt e|fs|ms|b] eqn:Hu; try (destruct raw; discriminate); destruct Hraw; try discriminate.
      * (* slice *)
        apply bindr_Ok in H as (r & Hr & H). inversion H; subst v.
        destruct (list_loop_total zero assignable ref e (map nst' (s0 :: l)) (nst' s0) l0 0) as [r' Hr'].
        { intros i j Hj. eapply alike_elem; [apply Hnth|]. eapply list_loop_elem; [exact Hr|exact Hj]. }
        rewrite Hr'. cbn [bindr]. eexists; split; [reflexivity|]. constructor.
        apply list_loop_ok in Hr as [Hl1 Hr1]. apply list_loop_ok in Hr' as [Hl2 Hr2].
        assert (Hi : forall i a b, nth_error r i = Some a -> nth_error r' i = Some b -> same_val a b).
        { intros i a b Ha Hb. assert (Hlt : i < length l0) by (rewrite <- Hl1; apply nth_error_Some; congruence).
          destruct (nth_error l0 i) as [j|] eqn:Hj; [|apply nth_error_None in Hj; lia].
          destruct (Hr1 _ _ Hj) as (t & y & Hd & Hn1). destruct (Hr2 _ _ Hj) as (t' & y' & Hd' & Hn2).
          destruct (Hnth _ _ _ _ Hd) as (y2 & Hd2 & Hs). rewrite Hd' in Hd2. inversion Hd2; subst.
          rewrite Ha in Hn1. rewrite Hb in Hn2. inversion Hn1; inversion Hn2; subst. constructor; exact Hs. }
        assert (Hlr : length r = length r') by congruence. clear -Hi Hlr. revert r' Hlr Hi.
        induction r as [|a r IH]; intros [|b r'] Hlr Hi; try discriminate; constructor.
        -- apply (Hi 0); reflexivity.
        -- apply IH; [simpl in Hlr; congruence|]. intros i. apply (Hi (S i)).
      * (* map *)
        apply bindr_Ok in H as (r & Hr & H). inversion H; subst v.
        assert (Hl1 : l = []).
        { pose proof (Hlen _ _ _ eq_refl eq_refl) as HL. simpl in HL. destruct l; [reflexivity|simpl in HL; lia]. }
        subst l. assert (Hone : forall i, nth_or_first (map nst [s0]) (nst s0) i = nst s0) by (intros [|[|i]]; reflexivity).
        assert (Hone' : forall i, nth_or_first (map nst' [s0]) (nst' s0) i = nst' s0) by (intros [|[|i]]; reflexivity).
        assert (Ha0 : alike ref (nst s0) (nst' s0)) by exact (Hnth 0).
        pose proof (listmap_loop_elem _ _ _ _ _ _ _ _ _ _ _ Hr) as [Hkt Hel].
        destruct (listmap_loop_total zero assignable ref kt e (map nst' [s0]) (nst' s0) m' 0 []) as [r' Hr'].
        { destruct Hkt as [->|Hkt]; [left; apply Permutation_nil; assumption|auto]. }
        { intros i k j Hj. rewrite Hone'. eapply alike_elem; [exact Ha0|].
          apply nth_error_In in Hj. apply (Permutation_in _ (Permutation_sym H0)) in Hj.
          apply In_nth_error in Hj as [i2 Hj]. apply Hel in Hj. rewrite Hone in Hj. exact Hj. }
        rewrite Hr'. cbn [bindr]. eexists; split; [reflexivity|].
        assert (Hnd' : NoDup (keys m')) by (eapply Permutation_NoDup; [apply (Permutation_map fst H0)|assumption]).
        apply listmap_loop_ok in Hr as (G1 & G2 & G3 & G4); [|assumption|constructor].
        apply listmap_loop_ok in Hr' as (G1' & G2' & G3' & G4'); [|assumption|constructor].
        apply (result_same_map ref [] [] (nst s0) (nst' s0) m m'); auto.
        -- intros k j Hj. apply In_nth_error in Hj as [i Hj]. apply G4 in Hj. rewrite Hone in Hj. exact Hj.
        -- intros k j Hj. apply In_nth_error in Hj as [i Hj]. apply G4' in Hj. rewrite Hone' in Hj. exact Hj.
    + rewrite nest_value_map in *. destruct Hraw; try discriminate.
      apply bindr_Ok in H as (v' & H & Hv). inversion Hv; subst v' vt. clear Hv.
      unfold handle_map in *. rewrite first_map_snd in *.
      destruct (get_first_from_map m) as [first|] eqn:Hf; cbn [option_map] in *; [|discriminate].
      apply first_from_map in Hf as [kf Hf].
      destruct (under E (ftype f)) as [n|t|e|t|kt e|fs|ms|b] eqn:Hu; try discriminate.
      apply bindr_Ok in H as (r & Hr & H). inversion H; subst v.
      assert (Hk : forall k, alike ref
          (match lookup k (map (fun ks => (fst ks, nst (snd ks))) m) with Some s => s | None => nst first end)
          (match lookup k (map (fun ks => (fst ks, nst' (snd ks))) m) with Some s => s | None => nst' first end)).
      { intros k. rewrite !lookup_map_snd. destruct (lookup k m) as [s|] eqn:Hlk; cbn [option_map].
        - apply (Hal (VMap m)); [reflexivity|]. econstructor; eapply lookup_In; exact Hlk.
        - apply (Hal (VMap m)); [reflexivity|]. econstructor; eapply lookup_In; apply Hf. }
      pose proof (map_loop_elem _ _ _ _ _ _ _ _ _ _ Hr) as [Hkt Hel].
      destruct (map_loop_total zero assignable ref kt e (map (fun ks => (fst ks, nst' (snd ks))) m) (nst' first) m' []) as [r' Hr'].
      { destruct Hkt as [->|Hkt]; [left; apply Permutation_nil; assumption|auto]. }
      { intros k j Hj. eapply alike_elem; [apply Hk|]. apply Hel. eapply Permutation_in; [apply Permutation_sym; eassumption|exact Hj]. }
      rewrite Hr'. cbn [bindr]. eexists; split; [reflexivity|].
      assert (Hnd' : NoDup (keys m')) by (eapply Permutation_NoDup; [apply (Permutation_map fst H0)|assumption]).
      apply map_loop_ok in Hr as (G1 & G2 & G3 & G4); [|assumption|constructor].
      apply map_loop_ok in Hr' as (G1' & G2' & G3' & G4'); [|assumption|constructor].
      eapply (result_same_map ref _ _ _ _ m0 m'); [assumption|assumption|exact Hk|exact G2|exact G4|exact G2'|exact G4'].
    + rewrite nest_value_map2 in *. destruct Hraw; try discriminate.
      apply bindr_Ok in H as (v' & H & Hv). inversion Hv; subst v' vt. clear Hv.
      unfold handle_map2 in *.
      rewrite (first_map_snd _ _ (fun mm => map (fun ks : string * sstruct => (fst ks, nst (snd ks))) mm) m) in H.
      rewrite (first_map_snd _ _ (fun mm => map (fun ks : string * sstruct => (fst ks, nst' (snd ks))) mm) m).
      destruct (get_first_from_map m) as [firstms|] eqn:Hf; cbn [option_map] in *; [|discriminate].
      apply first_from_map in Hf as [kf Hf]. rewrite first_map_snd in *.
      destruct (get_first_from_map firstms) as [first|] eqn:Hff; cbn [option_map] in *; [|discriminate].
      apply first_from_map in Hff as [kff Hff].
      destruct (under E (ftype f)) as [n|t|e|t|kt e|fs|ms|b] eqn:Hu; try discriminate.
      apply bindr_Ok in H as (r & Hr & H). inversion H; subst v.
      set (nm := map (fun km : string * list (string * sstruct) => (fst km, map (fun ks => (fst ks, nst (snd ks))) (snd km))) m) in *.
      set (nm' := map (fun km : string * list (string * sstruct) => (fst km, map (fun ks => (fst ks, nst' (snd ks))) (snd km))) m) in *.
      set (fm := map (fun ks => (fst ks, nst (snd ks))) firstms) in *.
      set (fm' := map (fun ks => (fst ks, nst' (snd ks))) firstms) in *.
      assert (Hk : forall a b, alike ref
          (match lookup b (match lookup a nm with Some s => s | None => fm end) with Some s => s | None => nst first end)
          (match lookup b (match lookup a nm' with Some s => s | None => fm' end) with Some s => s | None => nst' first end)).
      { intros a b. unfold nm, nm'.
        rewrite (lookup_map_snd _ _ (fun mm => map (fun ks : string * sstruct => (fst ks, nst (snd ks))) mm)).
        rewrite (lookup_map_snd _ _ (fun mm => map (fun ks : string * sstruct => (fst ks, nst' (snd ks))) mm)).
        assert (Hc : exists k mm, In (k, mm) m /\
          match option_map (fun mm => map (fun ks : string * sstruct => (fst ks, nst (snd ks))) mm) (lookup a m) with Some s => s | None => fm end
            = map (fun ks => (fst ks, nst (snd ks))) mm /\
          match option_map (fun mm => map (fun ks : string * sstruct => (fst ks, nst' (snd ks))) mm) (lookup a m) with Some s => s | None => fm' end
            = map (fun ks => (fst ks, nst' (snd ks))) mm).
        { destruct (lookup a m) as [mm|] eqn:Hla; cbn [option_map].
          - exists a, mm. split; [apply lookup_In; exact Hla|auto].
          - exists kf, firstms. split; [apply lookup_In; apply Hf|auto]. }
        destruct Hc as (k & mm & Hin & -> & ->). rewrite !lookup_map_snd.
        destruct (lookup b mm) as [s|] eqn:Hlb; cbn [option_map].
        - apply (Hal (VMap2 m)); [reflexivity|]. econstructor; [exact Hin|eapply lookup_In; exact Hlb].
        - apply (Hal (VMap2 m)); [reflexivity|]. econstructor; [eapply lookup_In; apply Hf|eapply lookup_In; apply Hff]. }
      pose proof (map2_outer_elem _ _ _ _ _ _ _ _ _ _ _ Hr) as Hel.
      destruct (map2_outer_total zero assignable ref kt e nm' fm' (nst' first) m' []) as [r' Hr'].
      { intros a i b j Ha Hb. destruct (H3 _ _ Ha) as (_ & i0 & Ha0 & Hpi).
        apply (Permutation_in _ (Permutation_sym Hpi)) in Hb.
        destruct (Hel _ _ _ _ Ha0 Hb) as [Hkt He]. split; [exact Hkt|]. eapply alike_elem; [apply Hk|exact He]. }
      rewrite Hr'. cbn [bindr]. eexists; split; [reflexivity|].
      apply map2_outer_ok in Hr as (G1 & G2 & G3 & G4); [|assumption|intros a i Ha; apply (H2 _ _ Ha)|constructor].
      apply map2_outer_ok in Hr' as (G1' & G2' & G3' & G4'); [|assumption|intros a i Ha; apply (H3 _ _ Ha)|constructor].
      constructor.
      * intros [a b]. rewrite G2, G2'. simpl. split.
        -- intros [[]|(i & Ha & Hb)]. destruct (H2 _ _ Ha) as (_ & i' & Ha' & Hpi). right. exists i'. split; [exact Ha'|].
           eapply Permutation_in; [apply (Permutation_map fst Hpi)|exact Hb].
        -- intros [[]|(i & Ha & Hb)]. destruct (H3 _ _ Ha) as (_ & i' & Ha' & Hpi). right. exists i'. split; [exact Ha'|].
           eapply Permutation_in; [apply Permutation_sym, (Permutation_map fst Hpi)|exact Hb].
      * intros [a b] w w' Hw Hw'. assert (Hin : In (a, b) (keys r)) by (apply lookup_Some_key; eauto).
        apply G2 in Hin as [[]|(i & Ha & Hb)]. apply lookup_Some_key in Hb as [j Hj]. apply lookup_In in Hj.
        destruct (G4 _ _ _ _ Ha Hj) as (t & y & Hd & Hl). destruct (H2 _ _ Ha) as (_ & i' & Ha' & Hpi).
        destruct (G4' _ _ _ _ Ha' (Permutation_in _ Hpi Hj)) as (t' & y' & Hd' & Hl').
        destruct (Hk _ _ _ _ _ Hd) as (y2 & Hd2 & Hs). rewrite Hd' in Hd2. inversion Hd2; subst.
        rewrite Hw in Hl. rewrite Hw' in Hl'. inversion Hl; inversion Hl'; subst. constructor; exact Hs.
  - destruct Hraw; try discriminate. inversion H; subst. eexists; split; [reflexivity|apply same_val_refl].
Qed.

(* All fields: the two loops, from targets that hold the same values. *)
Lemma fields_step_rel : forall fs ref om xs xs' cur cur' v,
  Forall2 (fun xr xr' => fst xr = fst xr' /\ raw_rel (snd xr) (snd xr') /\
    (forall sv s, lookup (fname (nf_field (fst xr))) om = Some sv -> in_value s sv -> alike ref (nst s) (nst' s)) /\
    (forall specs kt e, lookup (fname (nf_field (fst xr))) om = Some (VList specs) ->
       under E (ftype (nf_field (fst xr))) = TMap kt e -> length specs <= 1)) xs xs' ->
  (forall q, same_val (fields_of cur q) (fields_of cur' q)) ->
  (xs = [] -> same_val cur cur') ->
  fields_step E depth zero assignable [([], fs)] ref (nest_fields E depth std zero assignable perm om) xs cur = (v, Ok tt) ->
  exists v', fields_step E depth zero assignable [([], fs)] ref (nest_fields E depth std zero assignable perm' om) xs' cur' = (v', Ok tt)
    /\ same_val v v'.
Proof.
  intros fs ref om xs xs' cur cur' v H. revert cur cur' v.
  induction H as [|[x raw] [x' raw'] xs xs' (Hx & Hr & Hal & Hlen) H IH]; intros cur cur' v Hsame Hnil Hst.
  - inversion Hst; subst. exists cur'. split; [reflexivity|auto].
  - cbn [fst snd] in *. subst x'. cbn [fields_step] in *.
    unfold field_step in *.
    destruct (field_by_name E depth (nf_name x) [([], fs)]) as [[q ft]|] eqn:Hfb; cbn [option_map snd] in *.
    2:{ destruct (field_result _ _ _ _ _ _ _ _) as [[vt w]|e|p]; simpl in Hst; discriminate. }
    match type of Hst with context [field_result ?a ?b ?c ?d ?e ?f ?g ?h] =>
      destruct (field_result a b c d e f g h) as [[vt w]|er|p] eqn:Hfr end;
      cbn [bindr] in Hst; try discriminate.
    destruct (field_result_rel _ _ _ _ _ _ _ _ Hal Hlen Hr Hfr) as (w' & Hfr' & Hs).
    rewrite Hfr'. cbn [bindr fst snd] in *. unfold set_field in *. destruct (assignable vt ft); [|discriminate].
    assert (Hsame' : forall q0, same_val (fields_of (upd cur q w) q0) (fields_of (upd cur' q w') q0)).
    { intros q0. simpl. destruct (path_eqb q0 q); [exact Hs|apply Hsame]. }
    eapply IH; [exact Hsame'| |exact Hst]. intros _. constructor. exact Hsame'.
Qed.

Lemma forall2_impl : forall A B (R S : A -> B -> Prop) l l', (forall a b, R a b -> S a b) -> Forall2 R l l' -> Forall2 S l l'.
Proof. intros A B R S l l' HRS H; induction H; constructor; auto. Qed.

Theorem unmarshal_agrees : forall s, agrees s.
Proof.
  apply sstruct_induction. intros c fo IH ref t cur dat v Hnd Hof H.
  destruct fo as [[|kv om]|]; cbn [DetModel.json_unmarshal] in *;
    try (exists v; split; [exact H|apply same_val_refl]).
  remember (kv :: om) as om' eqn:Hom. fold (nest_fields E depth std zero assignable perm om') in H.
  fold (nest_fields E depth std zero assignable perm' om').
  clear Hom kv om. rename om' into om.
  unfold with_spec in *. destruct (collect E (implementations ref) depth (TPtr t) []) as [auto|] eqn:Hc; [|discriminate].
  destruct (merge_spec E depth ref t auto Hnd Hc) as [Hm Hmn].
  destruct (under E t) as [n|u|u|u|k u|fs|ms|b] eqn:Hu; try discriminate.
  destruct (loop_fields E depth om [] fs) as [nfs|] eqn:Hl; [|discriminate].
  destruct (has_dup (map nf_name nfs)) eqn:Hdup; [discriminate|].
  destruct (raw_struct E std zero perm om nfs dat) as [raws|e|p] eqn:Hr; try discriminate.
  assert (Hr' : exists raws', raw_struct E std zero perm' om nfs dat = Ok raws' /\ Forall2 raw_rel raws raws' /\ length raws = length nfs).
  { assert (Hmr : forall g, mapr (fun x => raw_field std zero perm x (g x)) nfs = Ok raws ->
      exists raws', mapr (fun x => raw_field std zero perm' x (g x)) nfs = Ok raws' /\ Forall2 raw_rel raws raws' /\ length raws = length nfs).
    { intros g. clear -Hperm Hperm'. revert raws. induction nfs as [|x nfs IH]; intros raws Hm; simpl in *.
      - inversion Hm; subst. exists []. repeat split; constructor.
      - apply bindr_Ok in Hm as (r & Hr & Hm). apply bindr_Ok in Hm as (rs & Hrs & Hm). inversion Hm; subst.
        apply raw_field_rel in Hr as (r' & Hr' & HR). apply IH in Hrs as (rs' & Hrs' & HRs & Hlen).
        rewrite Hr', Hrs'. simpl. eexists; split; [reflexivity|]. split; [constructor; assumption|congruence]. }
    destruct dat as [[|b|n|s|l|m]|]; simpl in Hr |- *; try discriminate; apply Hmr; exact Hr. }
  destruct Hr' as (raws' & Hr' & HR & Hlenr). rewrite Hr'.
  apply loop_fields_flat in Hl as (l & Hflat & Hnfs). simpl in Hnfs.
  inversion Hof as [c' fo' ref0 t0 Hof1 Hof2]; subst c' fo' ref0 t0.
  eapply fields_step_rel; [|intros q; apply same_val_refl|intros _; apply same_val_refl|exact H].
  assert (Hgen : forall ns, (forall x, In x ns -> In x nfs) -> forall rs rs', Forall2 raw_rel rs rs' -> length rs = length ns ->
    Forall2 (fun xr xr' => fst xr = fst xr' /\ raw_rel (snd xr) (snd xr') /\ In (fst xr) nfs) (combine ns rs) (combine ns rs')).
  { clear. induction ns as [|x ns IH]; intros Hin rs rs' HR Hlen; [constructor|].
    destruct HR as [|r r' rs rs' Hrr HR]; [discriminate|]. simpl. constructor.
    - simpl. split; [reflexivity|]. split; [exact Hrr|]. apply Hin; left; reflexivity.
    - apply IH; [intros; apply Hin; right; assumption|exact HR|simpl in Hlen; congruence]. }
  specialize (Hgen nfs (fun x Hx => Hx) raws raws' HR Hlenr).
  eapply forall2_impl; [|exact Hgen]. intros [x raw] [x' raw'] (He & Hrr & Hin). cbn [fst snd] in *. subst x'.
  split; [reflexivity|]. split; [exact Hrr|]. rewrite Hnfs in Hin. apply in_map_iff in Hin as ([p f] & Hpf & Hin). subst x.
  cbn [nf_field snd fst]. split.
  - intros sv s Hlk Hsv. apply agrees_alike; [exact Hmn|eapply merged_no_impls; exact Hm| |].
    + eapply IH; [reflexivity|eapply lookup_In; exact Hlk|exact Hsv].
    + intros t' Ht'. eapply Hof1; [reflexivity|exact Hu|exact Hflat|exact Hin|exact Hlk|exact Hsv|exact Hm|exact Ht'].
  - intros specs kt e Hlk Hmap. eapply Hof2; [reflexivity|exact Hu|exact Hflat|exact Hin|exact Hlk|exact Hmap].
Qed.

End Order.
