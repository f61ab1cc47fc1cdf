(* Proofs about decodeBody: it computes the value of a body. *)

From Verif Require Import Base CtyModel CtySpec CtyProofs CtyProofs2 HclModel HclSpec HclNumber.
From Coq Require Import Lia.

Section ExprInd.
Variable P : expr -> Prop.
Hypothesis H1 : forall z, P (ENum z).
Hypothesis H1d : forall m k, P (EDec m k).
Hypothesis H2 : forall s, P (EStr s).
Hypothesis H3 : forall b, P (EBool b).
Hypothesis H4 : P ENull.
Hypothesis H5 : forall f, P (ECall f).
Hypothesis H6 : forall x, P (EVar x).
Hypothesis H7 : forall l, (forall e, In e l -> P e) -> P (ETuple l).
Hypothesis H8 : forall m, (forall k e, In (k, e) m -> P e) -> P (EObj m).
Lemma expr_ind' : forall e, P e.
Proof.
  fix IH 1.
  intros [z|dm dk|s|b| |f|x|l|m];
    [exact (H1 z)|exact (H1d dm dk)|exact (H2 s)|exact (H3 b)|exact H4|exact (H5 f)|exact (H6 x)| |].
  - apply H7. induction l as [|e0 l IHl]; intros e I; [destruct I|].
    destruct I as [E|I]; [|exact (IHl e I)]. exact (eq_ind e0 P (IH e0) e E).
  - apply H8. induction m as [|[k0 e0] m IHm]; intros k e I; [destruct I|].
    destruct I as [E|I]; [|exact (IHm k e I)]. exact (eq_ind e0 P (IH e0) e (f_equal snd E)).
Qed.
End ExprInd.

Section ItemInd.
Variable P : item -> Prop.
Hypothesis H1 : forall k e, P (IAttr k e).
Hypothesis H2 : forall t ls b, (forall i, In i b -> P i) -> P (IBlock t ls b).
Lemma item_ind' : forall i, P i.
Proof.
  fix IH 1. intros [k e|t ls b]; [exact (H1 k e)|].
  apply H2. induction b as [|i0 b IHb]; intros i I; [destruct I|].
  destruct I as [E|I]; [|exact (IHb i I)]. exact (eq_ind i0 P (IH i0) i E).
Qed.
End ItemInd.

Fixpoint exprs_native (l : list expr) : result (list native) :=
  match l with
  | [] => Ok []
  | e :: l' => do x <- expr_native e; do r <- exprs_native l'; Ok (x :: r)
  end.

Definition put {A} (h : list (string * A)) (kv : string * A) : list (string * A) :=
  insert (fst kv) (snd kv) h.

Lemma native_tuple : forall l, expr_native (ETuple l) =
  do u <- exprs_native l; Ok (match u with [] => NNilList | _ => NList u end).
Proof.
  intros l. cbn [expr_native].
  match goal with |- bindr ?a _ = bindr ?b _ => assert (E : a = b); [|rewrite E; reflexivity] end.
  induction l as [|e l IH]; [reflexivity|]. cbn [exprs_native]. rewrite <- IH. reflexivity.
Qed.
Lemma native_obj : forall m, expr_native (EObj m) =
  do u <- attrs_native m; Ok (NMap (fold_left put u [])).
Proof.
  intros m. cbn [expr_native].
  match goal with |- bindr ?a _ = bindr ?b _ => assert (E : a = b); [|rewrite E; reflexivity] end.
  induction m as [|[k e] m IH]; [reflexivity|]. cbn [attrs_native]. rewrite <- IH. reflexivity.
Qed.

Lemma item_block_eq : forall t ls b, item_block (IBlock t ls b) = Some (t, ls, decode_body b).
Proof.
  intros t ls b. cbn [item_block]. unfold decode_body. repeat f_equal.
Qed.

(* ----- the last entry for a key ----- *)

Lemma lookup_put_all : forall A (l h : list (string * A)) k,
  lookup k (fold_left put l h) =
  match last_entry k l with Some v => Some v | None => lookup k h end.
Proof.
  intros A l. induction l as [|[k0 v0] l IH]; intros h k; [reflexivity|].
  cbn [fold_left]. rewrite IH. unfold last_entry. cbn [rev]. rewrite lookup_app.
  destruct (lookup k (rev l)); [reflexivity|]. unfold put. cbn [fst snd lookup].
  rewrite lookup_insert. destruct (eq_dec k k0); reflexivity.
Qed.

Lemma nodup_put_all : forall A (l h : list (string * A)),
  NoDup (keys h) -> NoDup (keys (fold_left put l h)).
Proof.
  intros A l. induction l as [|[k v] l IH]; intros h N; [exact N|].
  cbn [fold_left]. apply IH. apply NoDup_keys_insert. exact N.
Qed.

Lemma last_entry_cons : forall A k k0 (v0 : A) l, last_entry k ((k0, v0) :: l) =
  match last_entry k l with Some v => Some v | None => if eq_dec k k0 then Some v0 else None end.
Proof. intros. unfold last_entry. cbn [rev]. rewrite lookup_app. reflexivity. Qed.

Lemma last_entry_map : forall A B (f : A -> B) k l,
  last_entry k (map (fun kv => (fst kv, f (snd kv))) l) = option_map f (last_entry k l).
Proof.
  intros A B f k l. induction l as [|[k0 v0] l IH]; [reflexivity|].
  cbn [map fst snd]. rewrite !last_entry_cons, IH.
  destruct (last_entry k l); [reflexivity|]. cbn [option_map]. destruct (eq_dec k k0); reflexivity.
Qed.

Lemma last_entry_In : forall A k (v : A) l, last_entry k l = Some v -> In (k, v) l.
Proof. intros A k v l H. apply in_rev. apply lookup_In. exact H. Qed.

Lemma last_entry_None : forall A k (l : list (string * A)),
  last_entry k l = None <-> ~ In k (keys l).
Proof.
  intros A k l. unfold last_entry. rewrite lookup_None. unfold keys. rewrite map_rev, <- in_rev.
  reflexivity.
Qed.

(* ----- expressions ----- *)

Lemma attrs_native_spec : forall m u, attrs_native m = Ok u ->
  keys u = keys m /\ Forall2 (fun a b => fst a = fst b /\ expr_native (snd a) = Ok (snd b)) m u.
Proof.
  induction m as [|[k e] m IH]; intros u H; cbn [attrs_native] in H.
  - injection H as <-. split; [reflexivity|constructor].
  - apply bindr_Ok in H. destruct H as (x & Hx & H). apply bindr_Ok in H. destruct H as (r & Hr & H).
    injection H as <-. destruct (IH r Hr) as [K F].
    split; [cbn; f_equal; exact K|]. constructor; [split; [reflexivity|exact Hx]|exact F].
Qed.

Lemma Forall2_last : forall A B (R : A -> B -> Prop) m u k,
  Forall2 (fun a b => fst a = fst b /\ R (snd a) (snd b)) m u ->
  match last_entry k m, last_entry k u with
  | Some a, Some b => R a b
  | None, None => True
  | _, _ => False
  end.
Proof.
  intros A B R m u k F. induction F as [|[k1 a] [k2 b] m u [E H] F IH]; [exact I|].
  cbn [fst snd] in *. subst k2. rewrite !last_entry_cons.
  destruct (last_entry k m), (last_entry k u); try contradiction; [exact IH|].
  destruct (eq_dec k k1); [exact H|exact I].
Qed.

Lemma expr_sound : forall e v, expr_native e = Ok v -> expr_value e v.
Proof.
  induction e as [z|dm dk|s|b| |f|x|l IH|m IH] using expr_ind'; intros v H.
  - cbn [expr_native] in H. apply int_representable_conv in H. destruct H. constructor; assumption.
  - constructor. apply literal_sound. exact H.
  - injection H as <-. constructor.
  - injection H as <-. constructor.
  - injection H as <-. constructor.
  - cbn [expr_native] in H. destruct (String.eqb f "null") eqn:E; [|discriminate].
    apply String.eqb_eq in E. subst f. injection H as <-. constructor.
  - discriminate.
  - rewrite native_tuple in H. apply bindr_Ok in H. destruct H as (u & Hu & H). injection H as <-.
    assert (F : Forall2 expr_value l u).
    { clear -IH Hu. revert u Hu. induction l as [|e l IHl]; intros u Hu; cbn [exprs_native] in Hu.
      - injection Hu as <-. constructor.
      - apply bindr_Ok in Hu. destruct Hu as (x & Hx & Hu). apply bindr_Ok in Hu.
        destruct Hu as (r & Hr & Hu). injection Hu as <-. constructor.
        + apply IH; [left; reflexivity|exact Hx].
        + apply IHl; [intros e' I; apply IH; right; exact I|exact Hr]. }
    destruct u as [|x u].
    + inversion F; subst. constructor.
    + apply ev_tuple; [intros ->; inversion F|exact F].
  - rewrite native_obj in H. apply bindr_Ok in H. destruct H as (u & Hu & H). injection H as <-.
    destruct (attrs_native_spec m u Hu) as [K F].
    constructor.
    + apply nodup_put_all. constructor.
    + intros k. rewrite lookup_put_all. cbn [lookup].
      assert (L := Forall2_last _ _ (fun e v => expr_native e = Ok v) m u k F).
      destruct (last_entry k m), (last_entry k u); split; intros X; try contradiction; congruence.
    + intros k e v He Hv. rewrite lookup_put_all in Hv. cbn [lookup] in Hv.
      assert (L := Forall2_last _ _ (fun e v => expr_native e = Ok v) m u k F).
      rewrite He in L. destruct (last_entry k u); [|contradiction]. injection Hv as ->.
      apply (IH k e); [apply last_entry_In; exact He|exact L].
Qed.

Lemma expr_complete : forall e, good_expr e -> exists v, expr_native e = Ok v.
Proof.
  induction e as [z|dm dk|s|b| |f|x|l IH|m IH] using expr_ind'; intros G; inversion G; subst;
    try (eexists; reflexivity).
  - destruct (number_int (mkD z 0) z) as (v & E & _); [unfold is_whole; simpl; lia|assumption|].
    exists v. exact E.
  - apply decimal_total. assumption.
  - rewrite native_tuple.
    match goal with H : forall e, In e l -> good_expr e |- _ => rename H into Hg end.
    assert (E : exists u, exprs_native l = Ok u).
    { clear G. induction l as [|e l IHl]; [eexists; reflexivity|]. cbn [exprs_native].
      destruct (IH e (or_introl eq_refl)) as (x & ->); [apply Hg; left; reflexivity|].
      destruct IHl as (r & ->); [intros e' I; apply IH; right; exact I
                                |intros e' I; apply Hg; right; exact I|].
      eexists; reflexivity. }
    destruct E as (u & ->). eexists; reflexivity.
  - rewrite native_obj.
    match goal with H : forall k e, In (k, e) m -> good_expr e |- _ => rename H into Hg end.
    assert (E : exists u, attrs_native m = Ok u).
    { clear G. induction m as [|[k e] m IHm]; [eexists; reflexivity|]. cbn [attrs_native].
      destruct (IH k e (or_introl eq_refl)) as (x & ->); [apply (Hg k e); left; reflexivity|].
      destruct IHm as (r & ->); [intros k' e' I; apply (IH k' e'); right; exact I
                                |intros k' e' I; apply (Hg k' e'); right; exact I|].
      eexists; reflexivity. }
    destruct E as (u & ->). eexists; reflexivity.
Qed.

(* ----- grouping ----- *)

Definition sel {A} (k : string) (l : list (string * A)) : list A :=
  map snd (filter (fun b => if string_dec (fst b) k then true else false) l).

Definition group {A B} (f : A -> list B -> list B) (l : list (string * A))
  (m : list (string * list B)) : list (string * list B) :=
  fold_left (fun m kx => insert (fst kx) (f (snd kx) (get_or m (fst kx))) m) l m.

Lemma sel_cons : forall A k k0 (a : A) l,
  sel k ((k0, a) :: l) = if string_dec k0 k then a :: sel k l else sel k l.
Proof. intros. unfold sel. cbn [filter fst]. destruct (string_dec k0 k); reflexivity. Qed.

Lemma get_or_eq : forall A k (v : list A) m, get_or (insert k v m) k = v.
Proof. intros. unfold get_or. rewrite lookup_insert_eq. reflexivity. Qed.
Lemma get_or_ne : forall A k k0 (v : list A) m, k <> k0 -> get_or (insert k0 v m) k = get_or m k.
Proof. intros. unfold get_or. rewrite lookup_insert_ne by assumption. reflexivity. Qed.

Lemma lookup_group : forall A B (f : A -> list B -> list B) l m k,
  lookup k (group f l m) =
  match sel k l with
  | [] => lookup k m
  | s => Some (fold_left (fun h x => f x h) s (get_or m k))
  end.
Proof.
  intros A B f l. induction l as [|[k0 a] l IH]; intros m k; [reflexivity|].
  unfold group in *. cbn [fold_left fst snd]. rewrite IH, sel_cons.
  destruct (string_dec k0 k) as [->|N].
  - rewrite lookup_insert_eq, get_or_eq. destruct (sel k l); reflexivity.
  - rewrite lookup_insert_ne, get_or_ne by congruence. reflexivity.
Qed.

Lemma nodup_group : forall A B (f : A -> list B -> list B) l m,
  NoDup (keys m) -> NoDup (keys (group f l m)).
Proof.
  intros A B f l. induction l as [|[k a] l IH]; intros m N; [exact N|].
  unfold group in *. cbn [fold_left]. apply IH. apply NoDup_keys_insert. exact N.
Qed.

Lemma add_list_insert : forall A k (x : A) m,
  add_list k x m = insert k (get_or m k ++ [x]) m.
Proof.
  intros A k x m. induction m as [|[k' l] m IH]; cbn [add_list insert].
  - unfold get_or. reflexivity.
  - unfold get_or. cbn [lookup]. change (@eq_dec string EqDec_string k k') with (string_dec k k').
    destruct (string_dec k k') as [->|N]; [reflexivity|].
    rewrite IH. reflexivity.
Qed.

Fixpoint blocks0 (bs : list dblock) : list (string * result native) :=
  match bs with
  | [] => []
  | (t, [], r) :: bs' => (t, r) :: blocks0 bs'
  | _ :: bs' => blocks0 bs'
  end.
Fixpoint blocks1 (bs : list dblock) : list (string * (string * result native)) :=
  match bs with
  | [] => []
  | (t, [l], r) :: bs' => (t, (l, r)) :: blocks1 bs'
  | _ :: bs' => blocks1 bs'
  end.
Fixpoint blocks2 (bs : list dblock) : list (string * (string * (string * result native))) :=
  match bs with
  | [] => []
  | (t, [l1; l2], r) :: bs' => (t, (l1, (l2, r))) :: blocks2 bs'
  | _ :: bs' => blocks2 bs'
  end.

Definition add0 (r : result native) (l : list (result native)) := (l ++ [r])%list.
Definition add1 (lr : string * result native) (h : list (string * result native)) := put h lr.
Definition add2 (x : string * (string * result native)) (h : list (string * list (string * result native))) :=
  insert (fst x) (add1 (snd x) (get_or h (fst x))) h.

Lemma slice_group : forall bs, slice_bodies bs = group add0 (blocks0 bs) [].
Proof.
  intros bs. unfold slice_bodies, group. generalize (@nil (string * list (result native))).
  induction bs as [|[[t [|l ls]] r] bs IH]; intros m; cbn [fold_left blocks0 fst snd];
    [reflexivity| |apply IH].
  rewrite add_list_insert. apply IH.
Qed.
Lemma map_group : forall bs, map_bodies bs = group add1 (blocks1 bs) [].
Proof.
  intros bs. unfold map_bodies, group.
  generalize (@nil (string * list (string * result native))).
  induction bs as [|[[t [|l [|l' ls]]] r] bs IH]; intros m; cbn [fold_left blocks1 fst snd];
    [reflexivity|apply IH|apply IH|apply IH].
Qed.
Lemma map2_group : forall bs, map2_bodies bs = group add2 (blocks2 bs) [].
Proof.
  intros bs. unfold map2_bodies, group.
  generalize (@nil (string * list (string * list (string * result native)))).
  induction bs as [|[[t [|l [|l' [|l'' ls]]]] r] bs IH]; intros m; cbn [fold_left blocks2 fst snd];
    [reflexivity|apply IH|apply IH|apply IH|apply IH].
Qed.

Definition dec2 (b : string * list item) : string * result native := (fst b, decode_body (snd b)).

Lemma sel0 : forall k its,
  sel k (blocks0 (body_blocks its)) = map decode_body (unlabelled (named k its)).
Proof.
  intros k its. induction its as [|[k0 e|t ls b] its IH]; [reflexivity| |].
  - cbn [body_blocks item_block]. unfold named. cbn [filter item_name].
    destruct (string_dec k0 k); [cbn [unlabelled]|]; exact IH.
  - cbn [body_blocks]. rewrite item_block_eq. unfold named. cbn [filter item_name].
    destruct ls as [|l ls]; cbn [blocks0].
    + rewrite sel_cons. destruct (string_dec t k); [cbn [unlabelled map]; f_equal|]; exact IH.
    + destruct (string_dec t k); [cbn [unlabelled]|]; exact IH.
Qed.
Lemma sel1 : forall k its,
  sel k (blocks1 (body_blocks its)) = map dec2 (labelled1 (named k its)).
Proof.
  intros k its. induction its as [|[k0 e|t ls b] its IH]; [reflexivity| |].
  - cbn [body_blocks item_block]. unfold named. cbn [filter item_name].
    destruct (string_dec k0 k); [cbn [labelled1]|]; exact IH.
  - cbn [body_blocks]. rewrite item_block_eq. unfold named. cbn [filter item_name].
    destruct ls as [|l [|l' ls]]; cbn [blocks1].
    + destruct (string_dec t k); [cbn [labelled1]|]; exact IH.
    + rewrite sel_cons. destruct (string_dec t k); [cbn [labelled1 map]; f_equal|]; exact IH.
    + destruct (string_dec t k); [cbn [labelled1]|]; exact IH.
Qed.
Lemma sel2 : forall k its,
  sel k (blocks2 (body_blocks its))
  = map (fun b => (fst b, dec2 (snd b))) (labelled2 (named k its)).
Proof.
  intros k its. induction its as [|[k0 e|t ls b] its IH]; [reflexivity| |].
  - cbn [body_blocks item_block]. unfold named. cbn [filter item_name].
    destruct (string_dec k0 k); [cbn [labelled2]|]; exact IH.
  - cbn [body_blocks]. rewrite item_block_eq. unfold named. cbn [filter item_name].
    destruct ls as [|l [|l' [|l'' ls]]]; cbn [blocks2].
    + destruct (string_dec t k); [cbn [labelled2]|]; exact IH.
    + destruct (string_dec t k); [cbn [labelled2]|]; exact IH.
    + rewrite sel_cons. destruct (string_dec t k); [cbn [labelled2 map]; f_equal|]; exact IH.
    + destruct (string_dec t k); [cbn [labelled2]|]; exact IH.
Qed.

Lemma fold_add0 : forall s l, fold_left (fun h x => add0 x h) s l = (l ++ s)%list.
Proof.
  induction s as [|x s IH]; intros l; cbn [fold_left]; [rewrite app_nil_r; reflexivity|].
  rewrite IH. unfold add0. rewrite <- app_assoc. reflexivity.
Qed.

Lemma lookup_slice : forall k its,
  lookup k (slice_bodies (body_blocks its)) =
  match unlabelled (named k its) with [] => None | bs => Some (map decode_body bs) end.
Proof.
  intros k its. rewrite slice_group, lookup_group, sel0. unfold get_or. cbn [lookup].
  destruct (unlabelled (named k its)); [reflexivity|]. cbn [map]. rewrite fold_add0. reflexivity.
Qed.
Lemma lookup_map1 : forall k its,
  lookup k (map_bodies (body_blocks its)) =
  match labelled1 (named k its) with [] => None | bs => Some (fold_left put (map dec2 bs) []) end.
Proof.
  intros k its. rewrite map_group, lookup_group, sel1. unfold get_or. cbn [lookup].
  destruct (labelled1 (named k its)); reflexivity.
Qed.
Lemma lookup_map2 : forall k its,
  lookup k (map2_bodies (body_blocks its)) =
  match labelled2 (named k its) with
  | [] => None
  | bs => Some (group add1 (map (fun b => (fst b, dec2 (snd b))) bs) [])
  end.
Proof.
  intros k its. rewrite map2_group, lookup_group, sel2. unfold get_or. cbn [lookup].
  destruct (labelled2 (named k its)); reflexivity.
Qed.

Lemma lookup_second : forall l bs,
  lookup l (group add1 (map (fun b => (fst b, dec2 (snd b))) bs) []) =
  match under l bs with [] => None | s => Some (fold_left put (map dec2 s) []) end.
Proof.
  intros l bs. rewrite lookup_group. unfold get_or. cbn [lookup].
  assert (E : sel l (map (fun b : string * (string * list item) => (fst b, dec2 (snd b))) bs)
              = map dec2 (under l bs)).
  { induction bs as [|[l0 b] bs IH]; [reflexivity|]. cbn [map fst snd]. rewrite sel_cons, IH.
    unfold under. cbn [filter fst]. destruct (string_dec l0 l); reflexivity. }
  rewrite E. destruct (under l bs); reflexivity.
Qed.

(* ----- assigning and forcing ----- *)

Lemma assign_spec : forall A (f : A -> result native) g obj obj', NoDup (keys g) ->
  assign f g obj = Ok obj' ->
  (NoDup (keys obj) -> NoDup (keys obj'))
  /\ forall k, match lookup k g with
               | Some a => exists x, f a = Ok x /\ lookup k obj' = Some x
               | None => lookup k obj' = lookup k obj
               end.
Proof.
  intros A f g. induction g as [|[k0 a] g IH]; intros obj obj' N H; cbn [assign] in H.
  - injection H as <-. split; [auto|]. intros k. reflexivity.
  - apply bindr_Ok in H. destruct H as (x & Hx & H). cbn in N. inversion N as [|? ? N1 N2]; subst.
    destruct (IH _ _ N2 H) as [Hn Hl]. split.
    + intros No. apply Hn. apply NoDup_keys_insert. exact No.
    + intros k. specialize (Hl k). cbn [lookup]. destruct (eq_dec k k0) as [->|Ne].
      * exists x. split; [exact Hx|].
        destruct (lookup k0 g) eqn:E.
        { exfalso. apply N1. apply lookup_Some_key. eauto. }
        rewrite Hl, lookup_insert_eq. reflexivity.
      * destruct (lookup k g); [exact Hl|]. rewrite Hl, lookup_insert_ne by exact Ne. reflexivity.
Qed.

Lemma assign_ok : forall A (f : A -> result native) g obj,
  (forall k a, In (k, a) g -> exists x, f a = Ok x) -> exists obj', assign f g obj = Ok obj'.
Proof.
  intros A f g. induction g as [|[k a] g IH]; intros obj H; [eexists; reflexivity|].
  cbn [assign]. destruct (H k a (or_introl eq_refl)) as (x & ->). cbn [bindr].
  apply IH. intros k' a' I. apply (H k' a'). right. exact I.
Qed.

Lemma force_spec : forall K (l : list (K * result native)) u, force_all l = Ok u ->
  Forall2 (fun a b => fst a = fst b /\ snd a = Ok (snd b)) l u.
Proof.
  intros K l. induction l as [|[k r] l IH]; intros u H; cbn [force_all fold_right fst snd] in H.
  - injection H as <-. constructor.
  - apply bindr_Ok in H. destruct H as (x & Hx & H). apply bindr_Ok in H. destruct H as (r' & Hr & H).
    injection H as <-. constructor; [split; [reflexivity|exact Hx]|]. apply IH. exact Hr.
Qed.
Lemma force_ok : forall K (l : list (K * result native)),
  (forall k r, In (k, r) l -> exists x, r = Ok x) -> exists u, force_all l = Ok u.
Proof.
  intros K l. induction l as [|[k r] l IH]; intros H; [eexists; reflexivity|].
  cbn [force_all fold_right fst snd]. destruct (H k r (or_introl eq_refl)) as (x & ->).
  cbn [bindr]. destruct IH as (u & E); [intros k' r' I; apply (H k' r'); right; exact I|].
  unfold force_all in E. rewrite E. eexists; reflexivity.
Qed.

Lemma force_keys : forall (l : list (string * result native)) u, force_all l = Ok u -> keys u = keys l.
Proof.
  intros l u H. apply force_spec in H. induction H as [|a b l u [E _] F IH]; [reflexivity|].
  cbn. f_equal; [symmetry; exact E|exact IH].
Qed.
Lemma force_lookup : forall (l : list (string * result native)) u k, force_all l = Ok u ->
  match lookup k l, lookup k u with
  | Some r, Some x => r = Ok x
  | None, None => True
  | _, _ => False
  end.
Proof.
  intros l u k H. apply force_spec in H.
  induction H as [|[k1 r] [k2 x] l u [E R] F IH]; [exact I|]. cbn [fst snd] in *. subst k2.
  cbn [lookup]. destruct (eq_dec k k1); [exact R|exact IH].
Qed.

(* ----- decodeBody ----- *)

Lemma attr_names_keys : forall its, attr_names its = keys (body_attrs its).
Proof.
  induction its as [|[k e|t ls b] its IH]; [reflexivity| |]; cbn.
  - f_equal. exact IH.
  - exact IH.
Qed.

Lemma lookup_attrs : forall k its, NoDup (attr_names its) -> forall e,
  lookup k (body_attrs its) = Some e -> unlabelled (named k its) = [] ->
  labelled1 (named k its) = [] -> labelled2 (named k its) = [] ->
  (forall i, In i its -> few_labels i) -> named k its = [IAttr k e].
Proof.
  intros k its. induction its as [|[k0 e0|t ls b] its IH]; intros N e L U0 U1 U2 F; [discriminate| |].
  - cbn in N. inversion N as [|? ? N1 N2]; subst. cbn [body_attrs lookup] in L.
    unfold named in *. cbn [filter item_name] in *.
    destruct (eq_dec k k0) as [->|Ne].
    + injection L as ->. destruct (string_dec k0 k0) as [_|]; [|congruence]. f_equal.
      cbn [unlabelled labelled1 labelled2] in U0, U1, U2.
      rewrite attr_names_keys in N1.
      destruct (filter _ its) as [|i l] eqn:E; [reflexivity|]. exfalso.
      assert (Hi : In i (filter (fun i => if string_dec (item_name i) k0 then true else false) its))
        by (rewrite E; left; reflexivity).
      apply filter_In in Hi. destruct Hi as [Hi Hn].
      destruct i as [k1 e1|t ls b].
      * cbn [item_name] in Hn. destruct (string_dec k1 k0) as [->|]; [|discriminate].
        apply N1. clear -Hi. induction its as [|[k2 e2|t ls b] its IH]; [destruct Hi| |].
        -- cbn. destruct Hi as [[= -> ->]|Hi]; [left; reflexivity|right; apply IH; exact Hi].
        -- cbn. destruct Hi as [Hi|Hi]; [discriminate|apply IH; exact Hi].
      * assert (Fl : few_labels (IBlock t ls b)) by (apply F; right; exact Hi).
        cbn in Fl. destruct ls as [|l1 [|l2 [|l3 ls]]]; cbn in *; try discriminate; lia.
    + destruct (string_dec k0 k); [congruence|].
      apply IH; try assumption. intros i I. apply F. right. exact I.
  - cbn in N. cbn [body_attrs] in L. unfold named in *. cbn [filter item_name] in *.
    destruct (string_dec t k) as [->|Ne].
    + exfalso. assert (Fl : few_labels (IBlock k ls b)) by (apply F; left; reflexivity).
      cbn in Fl. destruct ls as [|l1 [|l2 [|l3 ls]]]; cbn in *; try discriminate; lia.
    + apply IH; try assumption. intros i I. apply F. right. exact I.
Qed.

Lemma lookup_attrs_none : forall k its, lookup k (body_attrs its) = None ->
  unlabelled (named k its) = [] -> labelled1 (named k its) = [] -> labelled2 (named k its) = [] ->
  (forall i, In i its -> few_labels i) -> named k its = [].
Proof.
  intros k its. induction its as [|[k0 e0|t ls b] its IH]; intros L U0 U1 U2 F; [reflexivity| |];
    unfold named in *; cbn [filter item_name body_attrs lookup] in *.
  - destruct (eq_dec k k0) as [|Ne]; [discriminate|].
    destruct (string_dec k0 k); [congruence|].
    apply IH; try assumption. intros i I. apply F. right. exact I.
  - destruct (string_dec t k) as [->|Ne].
    + exfalso. assert (Fl : few_labels (IBlock k ls b)) by (apply F; left; reflexivity).
      cbn in Fl. destruct ls as [|l1 [|l2 [|l3 ls]]]; cbn in *; try discriminate; lia.
    + apply IH; try assumption. intros i I. apply F. right. exact I.
Qed.

Lemma named_attr : forall k its e, lookup k (body_attrs its) = Some e -> named k its <> [].
Proof.
  intros k its e. induction its as [|[k0 e0|t ls b] its IH]; intros L; [discriminate| |];
    unfold named in *; cbn [filter item_name body_attrs lookup] in *.
  - destruct (eq_dec k k0) as [->|Ne].
    + destruct (string_dec k0 k0); [discriminate|congruence].
    + destruct (string_dec k0 k); [discriminate|apply IH; exact L].
  - destruct (string_dec t k); [discriminate|apply IH; exact L].
Qed.

Lemma too_many_few : forall its, existsb too_many (body_blocks its) = false ->
  forall i, In i its -> few_labels i.
Proof.
  induction its as [|i0 its IH]; intros H i I; [destruct I|].
  destruct i0 as [k e|t ls b]; cbn [body_blocks] in H.
  - cbn [item_block] in H. destruct I as [<-|I]; [exact Logic.I|apply IH; assumption].
  - rewrite item_block_eq in H. cbn [existsb] in H. apply orb_false_iff in H. destruct H as [H1 H2].
    destruct I as [<-|I]; [|apply IH; assumption].
    unfold too_many in H1. cbn [fst snd] in H1. apply Nat.ltb_ge in H1. exact H1.
Qed.
Lemma few_too_many : forall its, (forall i, In i its -> few_labels i) ->
  existsb too_many (body_blocks its) = false.
Proof.
  induction its as [|[k e|t ls b] its IH]; intros H; cbn [body_blocks]; [reflexivity| |].
  - cbn [item_block]. apply IH. intros i I. apply H. right. exact I.
  - rewrite item_block_eq. cbn [existsb]. apply orb_false_iff. split.
    + unfold too_many. cbn [fst snd]. apply Nat.ltb_ge. exact (H _ (or_introl eq_refl)).
    + apply IH. intros i I. apply H. right. exact I.
Qed.

Lemma in_unlabelled : forall its b, In b (unlabelled its) -> exists t, In (IBlock t [] b) its.
Proof.
  induction its as [|[k e|t [|l ls] b0] its IH]; intros b H; cbn [unlabelled] in H; [destruct H| | |].
  - destruct (IH b H) as (t & I). exists t. right. exact I.
  - destruct H as [<-|H]; [exists t; left; reflexivity|].
    destruct (IH b H) as (t' & I). exists t'. right. exact I.
  - destruct (IH b H) as (t' & I). exists t'. right. exact I.
Qed.
Lemma in_labelled1 : forall its l b, In (l, b) (labelled1 its) -> exists t, In (IBlock t [l] b) its.
Proof.
  induction its as [|[k e|t [|l0 [|l1 ls]] b0] its IH]; intros l b H; cbn [labelled1] in H;
    try (destruct (IH l b H) as (t' & I); exists t'; right; exact I); [destruct H|].
  destruct H as [[= <- <-]|H]; [exists t; left; reflexivity|].
  destruct (IH l b H) as (t' & I). exists t'. right. exact I.
Qed.
Lemma in_labelled2 : forall its l1 l2 b, In (l1, (l2, b)) (labelled2 its) ->
  exists t, In (IBlock t [l1; l2] b) its.
Proof.
  induction its as [|[k e|t [|l0 [|l1' [|l2' ls]]] b0] its IH]; intros l1 l2 b H; cbn [labelled2] in H;
    try (destruct (IH l1 l2 b H) as (t' & I); exists t'; right; exact I); [destruct H|].
  destruct H as [[= <- <- <-]|H]; [exists t; left; reflexivity|].
  destruct (IH l1 l2 b H) as (t' & I). exists t'. right. exact I.
Qed.
Lemma in_under : forall l bs l2 (b : list item), In (l2, b) (under l bs) -> In (l, (l2, b)) bs.
Proof.
  intros l bs l2 b H. unfold under in H. apply in_map_iff in H. destruct H as ([l0 x] & E & H).
  cbn [snd] in E. subst x. apply filter_In in H. destruct H as [H1 H2]. cbn [fst] in H2.
  destruct (string_dec l0 l) as [->|]; [exact H1|discriminate].
Qed.
Lemma in_named : forall k its i, In i (named k its) -> In i its /\ item_name i = k.
Proof.
  intros k its i H. apply filter_In in H. destruct H as [H1 H2]. split; [exact H1|].
  destruct (string_dec (item_name i) k); [assumption|discriminate].
Qed.

Lemma Forall2_len : forall A B (R : A -> B -> Prop) l l', Forall2 R l l' -> List.length l = List.length l'.
Proof. intros A B R l l' F. induction F; [reflexivity|]. cbn. f_equal. assumption. Qed.

(* What the maps of labelled bodies force to. *)
Lemma map_value_spec : forall bs v,
  (forall l b, In (l, b) bs -> forall v, decode_body b = Ok v -> body_value b v) ->
  map_value (fold_left put (map dec2 bs) []) = Ok v -> second_value bs v.
Proof.
  intros bs v IH H. unfold map_value in H. apply bindr_Ok in H. destruct H as (u & Hu & H).
  injection H as <-. constructor.
  - rewrite (force_keys _ _ Hu). apply nodup_put_all. constructor.
  - intros l. assert (L := force_lookup _ _ l Hu). rewrite lookup_put_all in L. cbn [lookup] in L.
    unfold dec2 in L. rewrite last_entry_map in L.
    destruct (last_entry l bs), (lookup l u); cbn in L; split; intros X; try contradiction; congruence.
  - intros l b v Hb Hv. assert (L := force_lookup _ _ l Hu). rewrite lookup_put_all in L.
    cbn [lookup] in L. unfold dec2 in L. rewrite last_entry_map, Hb, Hv in L. cbn in L.
    apply (IH l b); [apply last_entry_In; exact Hb|exact L].
Qed.

Theorem body_sound : forall its,
  distinct_attrs its ->
  (forall t ls b, In (IBlock t ls b) its -> forall v, decode_body b = Ok v -> body_value b v) ->
  forall v, decode_body its = Ok v -> body_value its v.
Proof.
  intros its D IH v H. destruct D as [its D _].
  unfold decode_body in H. apply bindr_Ok in H. destruct H as (attrs & Ha & H).
  unfold assemble in H. destruct (existsb too_many _) eqn:T; [discriminate|].
  assert (Few := too_many_few its T).
  apply bindr_Ok in H. destruct H as (o1 & H1 & H). apply bindr_Ok in H. destruct H as (o2 & H2 & H).
  apply bindr_Ok in H. destruct H as (o3 & H3 & H). injection H as <-.
  destruct (attrs_native_spec _ _ Ha) as [Ka Fa].
  assert (Na : NoDup (keys attrs)) by (rewrite Ka, <- attr_names_keys; exact D).
  apply assign_spec in H1; [|rewrite slice_group; apply nodup_group; constructor].
  apply assign_spec in H2; [|rewrite map_group; apply nodup_group; constructor].
  apply assign_spec in H3; [|rewrite map2_group; apply nodup_group; constructor].
  destruct H1 as [N1 L1], H2 as [N2 L2], H3 as [N3 L3].
  assert (La : forall k, match lookup k (body_attrs its), lookup k attrs with
            | Some e, Some x => expr_native e = Ok x | None, None => True | _, _ => False end).
  { intros k. clear -Fa. induction Fa as [|[k1 e] [k2 x] l u [E R] F IHF]; [exact I|].
    cbn [fst snd] in *. subst k2. cbn [lookup]. destruct (eq_dec k k1); [exact R|exact IHF]. }
  assert (IHn : forall k t ls b, In (IBlock t ls b) (named k its) ->
             forall v, decode_body b = Ok v -> body_value b v).
  { intros k t ls b I. apply (IH t ls b). apply in_named in I. tauto. }
  constructor.
  - exact Few.
  - auto.
  - intros k. specialize (L1 k). specialize (L2 k). specialize (L3 k). specialize (La k).
    rewrite lookup_slice in L1. rewrite lookup_map1 in L2. rewrite lookup_map2 in L3.
    destruct (labelled2 (named k its)) as [|b2 s2] eqn:E2.
    2:{ destruct L3 as (x & _ & Ex). rewrite Ex. split; intros X; [discriminate|rewrite X in E2; discriminate]. }
    destruct (labelled1 (named k its)) as [|b1 s1] eqn:E1.
    2:{ destruct L2 as (x & _ & Ex). rewrite L3, Ex. split; intros X; [discriminate|rewrite X in E1; discriminate]. }
    destruct (unlabelled (named k its)) as [|b0 s0] eqn:E0.
    2:{ destruct L1 as (x & _ & Ex). rewrite L3, L2, Ex. split; intros X; [discriminate|rewrite X in E0; discriminate]. }
    rewrite L3, L2, L1.
    destruct (lookup k (body_attrs its)) as [e|] eqn:Ee, (lookup k attrs) eqn:Ek; try contradiction.
    + split; [discriminate|]. intros X. exfalso. exact (named_attr k its e Ee X).
    + split; [|reflexivity]. intros _. apply lookup_attrs_none; assumption.
  - intros k v Hv. specialize (L1 k). specialize (L2 k). specialize (L3 k). specialize (La k).
    rewrite lookup_slice in L1. rewrite lookup_map1 in L2. rewrite lookup_map2 in L3.
    destruct (labelled2 (named k its)) as [|b2 s2] eqn:E2.
    2:{ destruct L3 as (x & Fx & Ex). rewrite Ex in Hv. injection Hv as ->. rewrite <- E2 in Fx.
        unfold map2_value in Fx. apply bindr_Ok in Fx. destruct Fx as (u & Hu & Fx).
        injection Fx as <-.
        assert (Lu : forall l, match under l (labelled2 (named k its)), lookup l u with
                   | [], None => True
                   | _ :: _, Some w => map_value (fold_left put (map dec2 (under l (labelled2 (named k its)))) []) = Ok w
                   | _, _ => False end).
        { intros l. assert (L := force_lookup _ _ l Hu).
          set (g := group add1 (map (fun b => (fst b, dec2 (snd b))) (labelled2 (named k its))) []) in *.
          assert (Lg : lookup l (map (fun kv => (fst kv, map_value (snd kv))) g)
                       = option_map map_value (lookup l g)).
          { clear. induction g as [|[k0 x0] g IHg]; [reflexivity|]. cbn [map fst snd lookup].
            destruct (eq_dec l k0); [reflexivity|exact IHg]. }
          rewrite Lg in L. unfold g in L. rewrite lookup_second in L.
          destruct (under l (labelled2 (named k its))); cbn [option_map] in L;
            destruct (lookup l u); try contradiction; [exact I|exact L]. }
        apply en_map2.
        - rewrite E2. discriminate.
        - rewrite (force_keys _ _ Hu). unfold keys. rewrite map_map. cbn [fst].
          change (NoDup (keys (group add1 (map (fun b => (fst b, dec2 (snd b))) (labelled2 (named k its))) []))).
          apply nodup_group. constructor.
        - intros l. specialize (Lu l). destruct (under l (labelled2 (named k its))), (lookup l u);
            try contradiction; split; intros X; congruence.
        - intros l w Hw. specialize (Lu l). rewrite Hw in Lu.
          destruct (under l (labelled2 (named k its))) as [|b3 s3] eqn:Eu; [contradiction|].
          rewrite <- Eu in *. apply map_value_spec; [|exact Lu].
          intros l2 b I. apply in_under in I. apply in_labelled2 in I. destruct I as (t & I).
          exact (IHn k t _ b I). }
    destruct (labelled1 (named k its)) as [|b1 s1] eqn:E1.
    2:{ destruct L2 as (x & Fx & Ex). rewrite L3, Ex in Hv. injection Hv as ->. rewrite <- E1 in Fx.
        assert (S : second_value (labelled1 (named k its)) v).
        { apply map_value_spec; [|exact Fx].
          intros l b I. apply in_labelled1 in I. destruct I as (t & I). exact (IHn k t _ b I). }
        inversion S as [bs m S1 S2 S3]; subst.
        apply en_map; try assumption. rewrite E1. discriminate. }
    destruct (unlabelled (named k its)) as [|b0 s0] eqn:E0.
    2:{ destruct L1 as (x & Fx & Ex). rewrite L3, L2, Ex in Hv. injection Hv as ->.
        rewrite <- E0 in Fx. unfold slice_value in Fx. apply bindr_Ok in Fx. destruct Fx as (u & Hu & Fx).
        apply force_spec in Hu.
        assert (Fu : Forall2 body_value (unlabelled (named k its)) (map snd u)).
        { assert (Iu : forall b, In b (unlabelled (named k its)) -> forall v, decode_body b = Ok v -> body_value b v).
          { intros b I. apply in_unlabelled in I. destruct I as (t & I). exact (IHn k t _ b I). }
          clear -Hu Iu. remember (unlabelled (named k its)) as bs eqn:Eb. clear Eb.
          revert u Hu. induction bs as [|b bs IHb]; intros u Hu; cbn [map] in Hu; inversion Hu as [|a w ? ? [_ R] F]; subst.
          - constructor.
          - cbn [map]. constructor.
            + apply Iu; [left; reflexivity|exact R].
            + apply IHb; [intros b' I; apply Iu; right; exact I|exact F]. }
        assert (Lu : List.length (map snd u) = List.length (unlabelled (named k its)))
          by (symmetry; exact (Forall2_len _ _ _ _ _ Fu)).
        rewrite E0 in Fu, Lu.
        destruct u as [|u0 [|u1 u]]; cbn in Lu.
        - discriminate.
        - injection Fx as <-. cbn [map] in Fu. inversion Fu as [|a w ? ? R F]; subst.
          destruct s0; [|discriminate].
          apply en_one with b0; try assumption.
        - injection Fx as <-. apply en_many; try assumption; rewrite E0; [cbn; lia|exact Fu]. }
    rewrite L3, L2, L1 in Hv.
    destruct (lookup k (body_attrs its)) as [e|] eqn:Ee; rewrite Hv in La; [|contradiction].
    rewrite (lookup_attrs k its D e Ee E0 E1 E2 Few). constructor. apply expr_sound. exact La.
Qed.

Theorem decode_sound : forall its v, distinct_attrs its -> decode_body its = Ok v -> body_value its v.
Proof.
  assert (A : forall i, match i with
                        | IAttr _ _ => True
                        | IBlock _ _ b => distinct_attrs b -> forall v, decode_body b = Ok v -> body_value b v
                        end).
  { induction i as [k e|t ls b IH] using item_ind'; [exact I|].
    intros D v H. apply body_sound; [exact D| |exact H].
    intros t' ls' b' I. apply (IH _ I). destruct D as [its _ Db]. exact (Db _ _ _ I). }
  intros its v D H. apply body_sound; [exact D| |exact H].
  intros t ls b I. apply (A (IBlock t ls b)). destruct D as [its _ Db]. exact (Db _ _ _ I).
Qed.

(* ----- everything evaluates ----- *)

Lemma put_all_in : forall A (l h : list (string * A)) k v,
  In (k, v) (fold_left put l h) -> In (k, v) h \/ exists k', In (k', v) l.
Proof.
  intros A l. induction l as [|[k0 v0] l IH]; intros h k v H; [left; exact H|].
  cbn [fold_left] in H. destruct (IH _ _ _ H) as [I|(k' & I)].
  - unfold put in I. cbn [fst snd] in I.
    assert (J : In (k, v) h \/ v = v0).
    { clear -I. induction h as [|[k1 v1] h IHh]; cbn [insert] in I.
      - destruct I as [[= _ <-]|[]]. right. reflexivity.
      - destruct (eq_dec k0 k1).
        + destruct I as [[= _ <-]|I]; [right; reflexivity|left; right; exact I].
        + destruct I as [I|I]; [left; left; exact I|].
          destruct (IHh I) as [J|J]; [left; right; exact J|right; exact J]. }
    destruct J as [J| ->]; [left; exact J|right; exists k0; left; reflexivity].
  - right. exists k'. right. exact I.
Qed.

Lemma lookup_nodup : forall A (m : list (string * A)) k v, NoDup (keys m) ->
  In (k, v) m -> lookup k m = Some v.
Proof. intros. apply In_lookup; assumption. Qed.

Theorem decode_complete_step : forall its,
  (forall i, In i its -> good_item i) ->
  (forall t ls b, In (IBlock t ls b) its -> exists v, decode_body b = Ok v) ->
  exists v, decode_body its = Ok v.
Proof.
  intros its G IH. unfold decode_body.
  assert (E : exists u, attrs_native (body_attrs its) = Ok u).
  { clear IH. induction its as [|[k e|t ls b] its IHl]; [eexists; reflexivity| |]; cbn [body_attrs].
    - cbn [attrs_native]. assert (Ge := G _ (or_introl eq_refl)). inversion Ge; subst.
      destruct (expr_complete e) as (x & ->); [assumption|].
      destruct IHl as (u & ->); [intros i I; apply G; right; exact I|]. eexists; reflexivity.
    - apply IHl. intros i I. apply G. right. exact I. }
  destruct E as (u & ->). cbn [bindr]. unfold assemble.
  assert (Few : forall i, In i its -> few_labels i).
  { intros i I. apply G in I. destruct I; cbn; auto. }
  rewrite (few_too_many its Few).
  assert (IHn : forall k t ls b, In (IBlock t ls b) (named k its) -> exists v, decode_body b = Ok v).
  { intros k t ls b I. apply in_named in I. apply (IH t ls b). tauto. }
  assert (MV : forall bs, (forall l b, In (l, b) bs -> exists v, decode_body b = Ok v) ->
            exists x, map_value (fold_left put (map dec2 bs) []) = Ok x).
  { intros bs Hb. unfold map_value.
    destruct (force_ok _ (fold_left put (map dec2 bs) [])) as (w & ->).
    - intros k r I. apply put_all_in in I. destruct I as [[]|(k' & I)].
      apply in_map_iff in I. destruct I as ([l b] & [= _ <-] & I). exact (Hb l b I).
    - eexists; reflexivity. }
  assert (N0 : NoDup (keys (slice_bodies (body_blocks its)))) by (rewrite slice_group; apply nodup_group; constructor).
  assert (N1 : NoDup (keys (map_bodies (body_blocks its)))) by (rewrite map_group; apply nodup_group; constructor).
  assert (N2 : NoDup (keys (map2_bodies (body_blocks its)))) by (rewrite map2_group; apply nodup_group; constructor).
  match goal with |- context [assign slice_value ?g ?o] => destruct (assign_ok _ slice_value g o) as (o1 & ->) end.
  { intros k a I. apply lookup_nodup in I; [|exact N0]. rewrite lookup_slice in I.
    destruct (unlabelled (named k its)) as [|b0 s0] eqn:E0; [discriminate|]. rewrite <- E0 in I.
    injection I as <-. unfold slice_value.
    match goal with |- context [force_all ?l] => destruct (force_ok _ l) as (w & Ew) end.
    - intros x r I. apply in_map_iff in I. destruct I as (r' & [= _ <-] & I).
      apply in_map_iff in I. destruct I as (b & <- & I).
      apply in_unlabelled in I. destruct I as (t & I). exact (IHn k t _ b I).
    - rewrite Ew. cbn [bindr]. assert (L := Forall2_len _ _ _ _ _ (force_spec _ _ _ Ew)).
      rewrite !map_length, E0 in L. destruct w as [|w0 [|w1 w]]; [discriminate| |]; eexists; reflexivity. }
  cbn [bindr].
  match goal with |- context [assign map_value ?g ?o] => destruct (assign_ok _ map_value g o) as (o2 & ->) end.
  { intros k a I. apply lookup_nodup in I; [|exact N1]. rewrite lookup_map1 in I.
    destruct (labelled1 (named k its)) as [|b0 s0] eqn:E0; [discriminate|]. rewrite <- E0 in I.
    injection I as <-. apply MV. intros l b J. apply in_labelled1 in J. destruct J as (t & J).
    exact (IHn k t _ b J). }
  cbn [bindr].
  match goal with |- context [assign map2_value ?g ?o] => destruct (assign_ok _ map2_value g o) as (o3 & ->) end.
  { intros k a I. apply lookup_nodup in I; [|exact N2]. rewrite lookup_map2 in I.
    destruct (labelled2 (named k its)) as [|b0 s0] eqn:E0; [discriminate|]. rewrite <- E0 in I.
    injection I as <-. unfold map2_value.
    match goal with |- context [force_all ?l] => destruct (force_ok _ l) as (w & ->) end.
    - intros l r J. apply in_map_iff in J. destruct J as ([l' x] & [= -> <-] & J).
      apply lookup_nodup in J; [|apply nodup_group; constructor]. rewrite lookup_second in J.
      destruct (under l (labelled2 (named k its))) as [|b3 s3] eqn:Eu; [discriminate|].
      rewrite <- Eu in J. injection J as <-. apply MV. intros l2 b Jb.
      apply in_under in Jb. apply in_labelled2 in Jb. destruct Jb as (t & Jb). exact (IHn k t _ b Jb).
    - eexists; reflexivity. }
  eexists; reflexivity.
Qed.

Theorem decode_complete : forall its, (forall i, In i its -> good_item i) ->
  exists v, decode_body its = Ok v.
Proof.
  assert (A : forall i, good_item i -> match i with
                        | IAttr _ _ => True
                        | IBlock _ _ b => exists v, decode_body b = Ok v
                        end).
  { induction i as [k e|t ls b IH] using item_ind'; intros G; [exact I|].
    inversion G as [|t' ls' b' Hl Hb]; subst. apply decode_complete_step; [exact Hb|].
    intros t' ls' b' I. exact (IH _ I (Hb _ I)). }
  intros its G. apply decode_complete_step; [exact G|].
  intros t ls b I. exact (A _ (G _ I)).
Qed.

(* A block with three labels or more is an error, wherever it stands. *)
Lemma decode_too_many : forall its t ls b, In (IBlock t ls b) its -> (3 <= List.length ls)%nat ->
  forall v, decode_body its <> Ok v.
Proof.
  intros its t ls b I L v H. unfold decode_body in H. apply bindr_Ok in H. destruct H as (u & _ & H).
  unfold assemble in H. destruct (existsb too_many (body_blocks its)) eqn:T; [discriminate|].
  assert (F := too_many_few its T _ I). cbn in F. lia.
Qed.
