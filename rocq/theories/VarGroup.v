(* Proofs for VarModel.v: the groupings of blocks, and loops over maps in any order. *)

From Verif Require Import Base CtyModel HclModel TreeModel VarModel VarSpec VarTree VarProofs.

(* ----- names in order of first appearance ----- *)

Lemma filter_idem_comm : forall (f g : string -> bool) l, filter f (filter g l) = filter g (filter f l).
Proof.
  intros f g l. induction l as [|a l IH]; simpl; [reflexivity|].
  destruct (g a) eqn:Eg; simpl; destruct (f a) eqn:Ef; simpl; rewrite ?Eg; try (rewrite IH; reflexivity); exact IH.
Qed.

Lemma firsts_In : forall l a, In a (firsts l) <-> In a l.
Proof.
  induction l as [|b l IH]; intros a; simpl; [tauto|]. rewrite filter_In, IH.
  destruct (string_dec b a); intuition congruence.
Qed.

Lemma firsts_snoc : forall l a, firsts (l ++ [a]) = if in_dec string_dec a l then firsts l else firsts l ++ [a].
Proof.
  induction l as [|b l IH]; intros a; simpl; [reflexivity|]. rewrite IH.
  destruct (string_dec b a) as [->|Hne].
  - destruct (in_dec string_dec a l); [reflexivity|]. rewrite filter_app. simpl.
    destruct (string_dec a a); [|contradiction]. rewrite app_nil_r. reflexivity.
  - destruct (in_dec string_dec a l); [reflexivity|]. rewrite filter_app. simpl.
    destruct (string_dec b a); [contradiction|reflexivity].
Qed.

Lemma firsts_NoDup : forall l, NoDup (firsts l).
Proof.
  induction l as [|a l IH]; simpl; [constructor|]. constructor.
  - rewrite filter_In. intros [_ E]. destruct (string_dec a a); [discriminate|contradiction].
  - apply NoDup_filter. exact IH.
Qed.

(* ----- association lists ----- *)

Lemma keys_add_list : forall {A} k (x : A) m,
  keys (add_list k x m) = if in_dec string_dec k (keys m) then keys m else keys m ++ [k].
Proof.
  intros A k x m. induction m as [|[k' l] m IH]; simpl; [reflexivity|].
  destruct (string_dec k k') as [->|Hne]; simpl.
  - destruct (string_dec k' k'); [reflexivity|contradiction].
  - fold (keys (add_list k x m)). fold (keys m). rewrite IH.
    destruct (string_dec k' k); [congruence|]. destruct (in_dec string_dec k (keys m)); reflexivity.
Qed.

Lemma lookup_add_list : forall {A} k (x : A) m t,
  lookup t (add_list k x m) = if string_dec t k then Some (match lookup k m with Some l => l ++ [x] | None => [x] end)
                              else lookup t m.
Proof.
  intros A k x m t. induction m as [|[k' l] m IH]; simpl.
  - destruct (eq_dec t k) as [Ht|Ht]; destruct (string_dec t k); try contradiction; reflexivity.
  - destruct (string_dec k k') as [->|Hne].
    + simpl. destruct (eq_dec t k'); destruct (string_dec t k'); try contradiction; try reflexivity.
      destruct (eq_dec k' k'); [reflexivity|contradiction].
    + simpl. destruct (eq_dec k k'); [contradiction|]. rewrite IH.
      destruct (eq_dec t k') as [->|]; [|reflexivity]. destruct (string_dec k' k); [congruence|reflexivity].
Qed.

Lemma insert_absent : forall {A} (k : string) (v : A) m, ~ In k (keys m) -> insert k v m = m ++ [(k, v)].
Proof.
  intros A k v m. induction m as [|[k' v'] m IH]; simpl; intros Hn; [reflexivity|].
  destruct (eq_dec k k') as [->|]; [exfalso; apply Hn; left; reflexivity|].
  f_equal. apply IH. intros Hin; apply Hn; right; exact Hin.
Qed.

Lemma keys_insert : forall {A} k (v : A) m,
  keys (insert k v m) = if in_dec string_dec k (keys m) then keys m else keys m ++ [k].
Proof.
  intros A k v m. induction m as [|[k' v'] m IH]; simpl; [reflexivity|].
  destruct (eq_dec k k') as [->|Hne]; simpl.
  - destruct (string_dec k' k'); [reflexivity|contradiction].
  - fold (keys (insert k v m)). fold (keys m). rewrite IH.
    destruct (string_dec k' k); [congruence|]. destruct (in_dec string_dec k (keys m)); reflexivity.
Qed.

Lemma lookup_absent : forall {A} k (m : list (string * A)), ~ In k (keys m) -> lookup k m = None.
Proof. intros A k m Hn. apply lookup_None. exact Hn. Qed.

(* ----- the groupings ----- *)

Section G.
Variable dec_of : vbody -> dec.
Definition dblocks (bs : blocks) : list (string * list string * dec) :=
  map (fun b => (fst b, dec_of (snd b))) bs.

Lemma types_snoc : forall n bs b, types n (bs ++ [b]) =
  if Nat.eqb (List.length (snd (fst b))) n then
    if in_dec string_dec (fst (fst b)) (types n bs) then types n bs else types n bs ++ [fst (fst b)]
  else types n bs.
Proof.
  intros n bs b. unfold types. rewrite filter_app. simpl. destruct (Nat.eqb (List.length (snd (fst b))) n).
  - rewrite map_app. simpl. rewrite firsts_snoc.
    destruct (in_dec string_dec (fst (fst b))
      (map (fun b0 => fst (fst b0)) (filter (fun b0 => Nat.eqb (List.length (snd (fst b0))) n) bs))) as [Hi|Hi];
    destruct (in_dec string_dec (fst (fst b)) (firsts (map (fun b0 => fst (fst b0))
      (filter (fun b0 => Nat.eqb (List.length (snd (fst b0))) n) bs)))) as [Hj|Hj]; try reflexivity;
    rewrite firsts_In in Hj; contradiction.
  - rewrite app_nil_r. reflexivity.
Qed.

Lemma bare_snoc : forall t bs t' ls b, bare t (bs ++ [(t', ls, b)]) =
  bare t bs ++ match ls with [] => if string_dec t t' then [b] else [] | _ => [] end.
Proof.
  intros t bs t' ls b. induction bs as [|[[t0 ls0] b0] bs IH]; simpl.
  - destruct ls; [destruct (string_dec t t')|]; reflexivity.
  - destruct ls0 as [|l0 ls0]; [destruct (string_dec t t0); simpl; rewrite IH; reflexivity|exact IH].
Qed.
Lemma labelled_snoc : forall t bs t' ls b, labelled t (bs ++ [(t', ls, b)]) =
  labelled t bs ++ match ls with [l] => if string_dec t t' then [(l, b)] else [] | _ => [] end.
Proof.
  intros t bs t' ls b. induction bs as [|[[t0 ls0] b0] bs IH]; simpl.
  - destruct ls as [|l [|l2 ls]]; [reflexivity|destruct (string_dec t t')|]; reflexivity.
  - destruct ls0 as [|l0 [|l1 ls0]]; [exact IH| |exact IH].
    destruct (string_dec t t0); simpl; rewrite IH; reflexivity.
Qed.
Lemma paired_snoc : forall t l1 bs t' ls b, paired t l1 (bs ++ [(t', ls, b)]) =
  paired t l1 bs ++ match ls with
                    | [l; l2] => if string_dec t t' then if string_dec l1 l then [(l2, b)] else [] else []
                    | _ => [] end.
Proof.
  intros t l1 bs t' ls b. induction bs as [|[[t0 ls0] b0] bs IH]; simpl.
  - destruct ls as [|l [|l2 [|l3 ls]]]; try reflexivity;
      destruct (string_dec t t'); try destruct (string_dec l1 l); reflexivity.
  - destruct ls0 as [|l0 [|l00 [|l000 ls0]]]; [exact IH|exact IH| |exact IH].
    destruct (string_dec t t0); [destruct (string_dec l1 l0); simpl; rewrite IH; reflexivity|exact IH].
Qed.
Lemma firsts_of_snoc : forall t bs t' ls b, firsts_of t (bs ++ [(t', ls, b)]) =
  firsts_of t bs ++ match ls with [l1; _] => if string_dec t t' then [l1] else [] | _ => [] end.
Proof.
  intros t bs t' ls b. induction bs as [|[[t0 ls0] b0] bs IH]; simpl.
  - destruct ls as [|l [|l2 [|l3 ls]]]; try reflexivity; destruct (string_dec t t'); reflexivity.
  - destruct ls0 as [|l0 [|l00 [|l000 ls0]]]; [exact IH|exact IH| |exact IH].
    destruct (string_dec t t0); simpl; rewrite IH; reflexivity.
Qed.

Lemma types0_bare : forall bs t, In t (types 0 bs) <-> bare t bs <> [].
Proof.
  intros bs t. unfold types. rewrite firsts_In. induction bs as [|[[t0 ls0] b0] bs IH]; simpl; [tauto|].
  destruct ls0 as [|l0 ls0]; simpl; [|exact IH].
  destruct (string_dec t t0) as [->|]; [split; [discriminate|auto]|]. rewrite IH. intuition congruence.
Qed.
Lemma types1_labelled : forall bs t, In t (types 1 bs) <-> labelled t bs <> [].
Proof.
  intros bs t. unfold types. rewrite firsts_In. induction bs as [|[[t0 ls0] b0] bs IH]; simpl; [tauto|].
  destruct ls0 as [|l0 [|l1 ls0]]; simpl; [exact IH| |exact IH].
  destruct (string_dec t t0) as [->|]; [split; [discriminate|auto]|]. rewrite IH. intuition congruence.
Qed.
Lemma types2_firsts : forall bs t, In t (types 2 bs) <-> firsts_of t bs <> [].
Proof.
  intros bs t. unfold types. rewrite firsts_In. induction bs as [|[[t0 ls0] b0] bs IH]; simpl; [tauto|].
  destruct ls0 as [|l0 [|l1 [|l2 ls0]]]; simpl; [exact IH|exact IH| |exact IH].
  destruct (string_dec t t0) as [->|]; [split; [discriminate|auto]|]. rewrite IH. intuition congruence.
Qed.
Lemma firsts_paired : forall bs t l, In l (firsts_of t bs) <-> paired t l bs <> [].
Proof.
  intros bs t l. induction bs as [|[[t0 ls0] b0] bs IH]; simpl; [tauto|].
  destruct ls0 as [|l0 [|l1 [|l2 ls0]]]; try exact IH.
  destruct (string_dec t t0) as [->|]; [|exact IH]. simpl.
  destruct (string_dec l l0) as [->|]; [split; [discriminate|auto]|]. rewrite IH. intuition congruence.
Qed.

Lemma dblocks_snoc : forall bs t ls b, dblocks (bs ++ [(t, ls, b)]) = dblocks bs ++ [(t, ls, dec_of b)].
Proof. intros. unfold dblocks. rewrite map_app. reflexivity. Qed.

(* No labels. *)
Lemma g_slice_snoc : forall bs t ls d, g_slice (bs ++ [(t, ls, d)]) =
  match ls with [] => add_list t d (g_slice bs) | _ => g_slice bs end.
Proof. intros bs t ls d. unfold g_slice. rewrite fold_left_app. simpl. destruct ls; reflexivity. Qed.

Lemma g_slice_spec : forall bs, keys (g_slice (dblocks bs)) = types 0 bs /\
  forall t, In t (types 0 bs) -> lookup t (g_slice (dblocks bs)) = Some (map dec_of (bare t bs)).
Proof.
  intros bs. induction bs as [|[[t0 ls] b] bs [IHk IHl]] using rev_ind; [split; [reflexivity|intros t []]|].
  rewrite dblocks_snoc, g_slice_snoc, types_snoc. simpl fst. simpl snd.
  destruct ls as [|l ls]; simpl Nat.eqb; cbv iota.
  - assert (Hl : forall t, lookup t (g_slice (dblocks bs)) =
        if in_dec string_dec t (types 0 bs) then Some (map dec_of (bare t bs)) else None).
    { intros t. destruct (in_dec string_dec t (types 0 bs)) as [Hi|Hi]; [apply IHl; exact Hi|].
      apply lookup_absent. rewrite IHk. exact Hi. }
    split.
    + rewrite keys_add_list, IHk. reflexivity.
    + intros t Hin. rewrite lookup_add_list, bare_snoc. destruct (string_dec t t0) as [->|Hne].
      * rewrite Hl, map_app. simpl. destruct (in_dec string_dec t0 (types 0 bs)) as [Hi|Hi]; [reflexivity|].
        rewrite types0_bare in Hi. destruct (bare t0 bs); [reflexivity|exfalso; apply Hi; discriminate].
      * rewrite app_nil_r. apply IHl. destruct (in_dec string_dec t0 (types 0 bs)); [exact Hin|].
        apply in_app_or in Hin. destruct Hin as [Hin|[<-|[]]]; [exact Hin|contradiction].
  - split; [exact IHk|]. intros t Hin. rewrite bare_snoc, app_nil_r. apply IHl. exact Hin.
Qed.

(* One label. *)
Definition dlabels (l : list (string * vbody)) : list (string * dec) := map (fun lb => (fst lb, dec_of (snd lb))) l.
Lemma keys_dlabels : forall l, keys (dlabels l) = map fst l.
Proof. intros l. unfold keys, dlabels. rewrite map_map. reflexivity. Qed.

Lemma g_map_snoc : forall bs t ls d, g_map (bs ++ [(t, ls, d)]) =
  match ls with [l] => insert t (insert l d (get_or (g_map bs) t)) (g_map bs) | _ => g_map bs end.
Proof. intros bs t ls d. unfold g_map. rewrite fold_left_app. simpl. destruct ls as [|l [|l2 ls]]; reflexivity. Qed.

Lemma NoDup_app_l : forall {A} (a b : list A), NoDup (a ++ b) -> NoDup a.
Proof.
  intros A a b. induction a as [|x a IH]; simpl; intros H; [constructor|].
  inversion H as [|? ? Hn H']; subst. constructor; [|auto]. intros Hi; apply Hn; apply in_or_app; auto.
Qed.

Lemma g_map_keys : forall bs, keys (g_map (dblocks bs)) = types 1 bs.
Proof.
  intros bs. induction bs as [|[[t0 ls] b] bs IHk] using rev_ind; [reflexivity|].
  rewrite dblocks_snoc, g_map_snoc, types_snoc. simpl fst. simpl snd.
  destruct ls as [|l [|l2 ls]]; simpl Nat.eqb; cbv iota; [exact IHk| |exact IHk].
  rewrite keys_insert, IHk. reflexivity.
Qed.

Lemma g_map_spec : forall bs t, NoDup (map fst (labelled t bs)) -> In t (types 1 bs) ->
  lookup t (g_map (dblocks bs)) = Some (dlabels (labelled t bs)).
Proof.
  intros bs t. induction bs as [|[[t0 ls] b] bs IH] using rev_ind; [intros _ []|].
  rewrite dblocks_snoc, g_map_snoc, labelled_snoc, types_snoc. simpl fst. simpl snd.
  destruct ls as [|l [|l2 ls]]; simpl Nat.eqb; cbv iota; rewrite ?app_nil_r; [exact IH| |exact IH].
  destruct (string_dec t t0) as [->|Hne].
  - intros Hn _. rewrite map_app in Hn. simpl in Hn. rewrite lookup_insert_eq. f_equal.
    assert (Hget : get_or (g_map (dblocks bs)) t0 = dlabels (labelled t0 bs)).
    { unfold get_or. destruct (in_dec string_dec t0 (types 1 bs)) as [Hi|Hi].
      - rewrite IH; [reflexivity|apply NoDup_app_l in Hn; exact Hn|exact Hi].
      - rewrite lookup_absent by (rewrite g_map_keys; exact Hi).
        rewrite types1_labelled in Hi. destruct (labelled t0 bs); [reflexivity|exfalso; apply Hi; discriminate]. }
    rewrite Hget, insert_absent.
    + unfold dlabels. rewrite map_app. reflexivity.
    + rewrite keys_dlabels. apply NoDup_remove_2 in Hn. rewrite app_nil_r in Hn. exact Hn.
  - rewrite app_nil_r. intros Hn Hin. rewrite lookup_insert_ne by exact Hne. apply IH; [exact Hn|].
    destruct (in_dec string_dec t0 (types 1 bs)); [exact Hin|].
    apply in_app_or in Hin. destruct Hin as [Hin|[<-|[]]]; [exact Hin|contradiction].
Qed.

(* Two labels. *)
Lemma g_map2_snoc : forall bs t ls d, g_map2 (bs ++ [(t, ls, d)]) =
  match ls with
  | [l1; l2] => insert t (insert l1 (insert l2 d (get_or (get_or (g_map2 bs) t) l1)) (get_or (g_map2 bs) t)) (g_map2 bs)
  | _ => g_map2 bs end.
Proof. intros bs t ls d. unfold g_map2. rewrite fold_left_app. simpl. destruct ls as [|l [|l2 [|l3 ls]]]; reflexivity. Qed.

Lemma g_map2_keys : forall bs, keys (g_map2 (dblocks bs)) = types 2 bs.
Proof.
  intros bs. induction bs as [|[[t0 ls] b] bs IHk] using rev_ind; [reflexivity|].
  rewrite dblocks_snoc, g_map2_snoc, types_snoc. simpl fst. simpl snd.
  destruct ls as [|l [|l2 [|l3 ls]]]; simpl Nat.eqb; cbv iota; [exact IHk|exact IHk| |exact IHk].
  rewrite keys_insert, IHk. reflexivity.
Qed.

Lemma g_map2_first : forall bs t, keys (get_or (g_map2 (dblocks bs)) t) = firsts (firsts_of t bs).
Proof.
  intros bs t. induction bs as [|[[t0 ls] b] bs IH] using rev_ind; [reflexivity|].
  rewrite dblocks_snoc, g_map2_snoc, firsts_of_snoc.
  destruct ls as [|l [|l2 [|l3 ls]]]; rewrite ?app_nil_r; [exact IH|exact IH| |exact IH].
  destruct (string_dec t t0) as [->|Hne].
  - unfold get_or at 1. rewrite lookup_insert_eq, keys_insert, IH, firsts_snoc.
    destruct (in_dec string_dec l (firsts (firsts_of t0 bs))) as [Hi|Hi];
    destruct (in_dec string_dec l (firsts_of t0 bs)) as [Hj|Hj]; try reflexivity;
    rewrite firsts_In in Hi; contradiction.
  - rewrite app_nil_r. unfold get_or at 1. rewrite lookup_insert_ne by exact Hne. exact IH.
Qed.

Lemma g_map2_spec : forall bs t l, NoDup (map fst (paired t l bs)) ->
  get_or (get_or (g_map2 (dblocks bs)) t) l = dlabels (paired t l bs).
Proof.
  intros bs t l. induction bs as [|[[t0 ls] b] bs IH] using rev_ind; [reflexivity|].
  rewrite dblocks_snoc, g_map2_snoc, paired_snoc.
  destruct ls as [|l0 [|l2 [|l3 ls]]]; rewrite ?app_nil_r; [exact IH|exact IH| |exact IH].
  destruct (string_dec t t0) as [->|Hne].
  - intros Hn. unfold get_or at 2. rewrite lookup_insert_eq.
    destruct (string_dec l l0) as [->|Hl].
    + unfold get_or at 1. rewrite lookup_insert_eq. rewrite map_app in Hn. simpl in Hn.
      rewrite IH by (apply NoDup_app_l in Hn; exact Hn). rewrite insert_absent.
      * unfold dlabels. rewrite map_app. reflexivity.
      * rewrite keys_dlabels. apply NoDup_remove_2 in Hn. rewrite app_nil_r in Hn. exact Hn.
    + rewrite app_nil_r in *. unfold get_or at 1. rewrite lookup_insert_ne by exact Hl. apply IH. exact Hn.
  - rewrite app_nil_r. intros Hn. unfold get_or at 2. rewrite lookup_insert_ne by exact Hne. apply IH. exact Hn.
Qed.
End G.

(* ----- loops over maps ----- *)

Section L.
Notation theap := (heap CtyModel.cval).
Variable ord : order.
Hypothesis ord_perm : forall p site ks, Permutation ks (ord p site ks).

Lemma visit_ok : forall {A B} (f : theap -> string -> A -> result (theap * B)) (m : list (string * A))
  (xs : list (string * B)) (Inv : theap -> Prop) (Post : string -> theap -> Prop),
  (forall h k a, lookup k m = Some a -> Inv h -> exists h' x, f h k a = Ok (h', x) /\ lookup k xs = Some x /\
     Inv h' /\ Post k h' /\ (forall k', k' <> k -> Post k' h -> Post k' h')) ->
  forall ks h, NoDup ks -> (forall k, In k ks -> In k (keys m)) -> Inv h ->
  exists h' ys, visit f m ks h = Ok (h', ys) /\ keys ys = ks /\ (forall k, In k ks -> lookup k ys = lookup k xs) /\
    Inv h' /\ (forall k, In k ks -> Post k h') /\ (forall k, ~ In k ks -> Post k h -> Post k h').
Proof.
  intros A B f m xs Inv Post Hf. induction ks as [|k ks IH]; intros h Hn Hin HI; cbn [visit].
  - exists h, []. simpl. repeat split; auto; intros k [].
  - inversion Hn as [|? ? Hnk Hn']; subst.
    assert (Hk : In k (keys m)) by (apply Hin; left; reflexivity).
    apply lookup_Some_key in Hk. destruct Hk as [a Ea]. rewrite Ea.
    destruct (Hf h k a Ea HI) as [h1 [x [Ef [Ex [HI1 [HP Hkeep]]]]]]. rewrite Ef. cbn [bindr fst snd].
    destruct (IH h1 Hn' (fun k' Hk' => Hin k' (or_intror Hk')) HI1) as [h2 [ys [Ev [Ek [El [HI2 [HPs Hks]]]]]]].
    rewrite Ev. cbn [bindr fst snd]. exists h2, ((k, x) :: ys). split; [reflexivity|].
    split; [simpl; f_equal; exact Ek|]. split; [|split; [exact HI2|split]].
    + intros k' [<-|Hk']; simpl.
      * destruct (eq_dec k k); [congruence|contradiction].
      * destruct (eq_dec k' k) as [->|]; [contradiction|apply El; exact Hk'].
    + intros k' [<-|Hk']; [apply Hks; assumption|apply HPs; exact Hk'].
    + intros k' Hk' HPk'. apply Hks; [intros Hi; apply Hk'; right; exact Hi|].
      apply Hkeep; [intros ->; apply Hk'; left; reflexivity|exact HPk'].
Qed.

Lemma relist_same : forall {B} (xs ys : list (string * B)), NoDup (keys xs) ->
  (forall k, In k (keys xs) -> lookup k ys = lookup k xs) -> relist (keys xs) ys = xs.
Proof.
  intros B xs ys. unfold relist. induction xs as [|[k x] xs IH]; intros Hn Hl; [reflexivity|].
  inversion Hn as [|? ? Hk Hn']; subst. simpl. rewrite (Hl k (or_introl eq_refl)). simpl.
  destruct (eq_dec k k); [|contradiction]. simpl. f_equal. apply IH; [exact Hn'|].
  intros k' Hk'. rewrite (Hl k' (or_intror Hk')). simpl. destruct (eq_dec k' k) as [->|]; [contradiction|reflexivity].
Qed.

Lemma range_ok : forall {A B} (f : theap -> string -> A -> result (theap * B)) (m : list (string * A))
  (xs : list (string * B)) (Inv : theap -> Prop) (Post : string -> theap -> Prop) p site h,
  NoDup (keys m) -> keys xs = keys m ->
  (forall h k a, lookup k m = Some a -> Inv h -> exists h' x, f h k a = Ok (h', x) /\ lookup k xs = Some x /\
     Inv h' /\ Post k h' /\ (forall k', k' <> k -> Post k' h -> Post k' h')) ->
  Inv h -> exists h', range ord p site f m h = Ok (h', xs) /\ Inv h' /\ (forall k, In k (keys m) -> Post k h').
Proof.
  intros A B f m xs Inv Post p site h Hn Hk Hf HI. unfold range.
  pose proof (ord_perm p site (keys m)) as Hp.
  destruct (visit_ok f m xs Inv Post Hf (ord p site (keys m)) h) as [h' [ys [Ev [Ek [El [HI' [HP _]]]]]]].
  - eapply Permutation_NoDup; eauto.
  - intros k Hin. eapply Permutation_in; [apply Permutation_sym; exact Hp|exact Hin].
  - exact HI.
  - rewrite Ev. cbn [bindr fst snd]. exists h'. split; [|split; [exact HI'|]].
    + rewrite <- Hk. rewrite relist_same; [reflexivity|rewrite Hk; exact Hn|].
      intros k Hin. apply El. rewrite Hk in Hin. eapply Permutation_in; eauto.
    + intros k Hin. apply HP. eapply Permutation_in; eauto.
Qed.
End L.
