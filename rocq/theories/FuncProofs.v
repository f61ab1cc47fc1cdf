(* Proofs about the functions of internal/lang/funcs. *)

From Verif Require Import Base CtyModel FuncModel FuncSpec.
From Coq Require Import Lia.

(* ----- induction over values ----- *)

Section ValueInd.
Variable P : value -> Prop.
Hypothesis Hv : forall ms s l, (forall k v, In (k, v) l -> P v) -> P (Val ms s l).
Lemma value_ind' : forall v, P v.
Proof.
  fix IH 1. intros [ms s l]. apply Hv. induction l as [|[k0 v0] l IHl].
  - intros k v [].
  - intros k v [E|I].
    + injection E as _ E. rewrite <- E. apply IH.
    + exact (IHl k v I).
Qed.
End ValueInd.

(* ----- marks ----- *)

Lemma has_mark_In : forall m ms, has_mark m ms = true <-> In m ms.
Proof.
  intros m ms. unfold has_mark. rewrite existsb_exists. split.
  - intros (x & I & E). apply String.eqb_eq in E. subst. exact I.
  - intros I. exists m. split; [exact I|apply String.eqb_refl].
Qed.

Lemma union_In : forall m a b, In m (union a b) <-> In m a \/ In m b.
Proof.
  intros m a b. unfold union. rewrite in_app_iff, filter_In. split; [tauto|].
  intros [I|I]; [tauto|]. destruct (has_mark m a) eqn:E; [left; apply has_mark_In; exact E|right; auto].
Qed.

Lemma marks_with : forall m ms v, In m (marks_of (with_marks ms v)) <-> In m (marks_of v) \/ In m ms.
Proof. intros m ms [m0 s l]. cbn. apply union_In. Qed.
Lemma shape_with : forall ms v, shape_of (with_marks ms v) = shape_of v.
Proof. intros ms [m s l]. reflexivity. Qed.
Lemma elems_with : forall ms v, elems (with_marks ms v) = elems v.
Proof. intros ms [m s l]. reflexivity. Qed.
Lemma type_with : forall ms v, type_of (with_marks ms v) = type_of v.
Proof. intros ms [m s l]. destruct s; reflexivity. Qed.

Definition unmark_all (l : list (string * value)) : list (string * value) :=
  map (fun kv => (fst kv, unmark_deep (snd kv))) l.
Lemma unmark_deep_eq : forall ms s l, unmark_deep (Val ms s l) = Val [] s (unmark_all l).
Proof.
  intros ms s l. cbn [unmark_deep]. f_equal. induction l as [|[k v] l IH]; [reflexivity|].
  cbn [unmark_all map fst snd]. rewrite IH. reflexivity.
Qed.
Lemma deep_marks_eq : forall ms s l, deep_marks (Val ms s l) = (ms ++ flat_map (fun kv => deep_marks (snd kv)) l)%list.
Proof.
  intros ms s l. cbn [deep_marks]. f_equal. induction l as [|[k v] l IH]; [reflexivity|].
  cbn [flat_map snd]. rewrite IH. reflexivity.
Qed.
Lemma deep_marks_In : forall m v, In m (deep_marks v) <-> marked_in m v.
Proof.
  intros m v. induction v as [ms s l IH] using value_ind'. rewrite deep_marks_eq, in_app_iff, in_flat_map. split.
  - intros [I|([k v] & I & D)]; [apply mi_here; exact I|]. apply (mi_in m ms s l k v I), (IH k v I), D.
  - intros H. inversion H as [? ? ? I|? ? ? k v I D]; subst; [left; exact I|].
    right. exists (k, v). split; [exact I|]. apply (IH k v I), D.
Qed.
Lemma shape_unmark_deep : forall v, shape_of (unmark_deep v) = shape_of v.
Proof. intros [ms s l]. reflexivity. Qed.

(* ----- alltrue and anytrue ----- *)

Definition bool_item (v : value) : Prop :=
  (exists b, shape_of v = SBool b) \/ (exists t, shape_of v = SNull t) \/ (exists t p, shape_of v = SUnknown t p).
Lemma bool_items : forall v, typed v -> type_of v = boolt -> bool_item v.
Proof.
  intros v T E. unfold bool_item. destruct T; cbn in E; try discriminate; cbn [shape_of]; eauto.
Qed.

Lemma all_true_spec : forall l, (forall k v, In (k, v) l -> bool_item v) ->
  exists r, all_true l = Ok r /\ marks_of r = [] /\
    ((exists b, shape_of r = SBool b /\ forall bs, Forall2 (fun kv c => may_be (snd kv) c) l bs -> b = forallb (fun c => c) bs)
     \/ (shape_of r = SUnknown boolt "" /\ exists k v, In (k, v) l /\ is_known v = false)).
Proof.
  induction l as [|[k v] l IH]; intros H.
  - eexists. split; [reflexivity|]. split; [reflexivity|]. left. exists true. split; [reflexivity|].
    intros bs F. inversion F. reflexivity.
  - cbn [all_true]. destruct (H k v (or_introl eq_refl)) as [(b & E)|[(t & E)|(t & p & E)]]; rewrite E.
    + destruct b.
      * destruct (IH (fun k v I => H k v (or_intror I))) as (r & R & M & S). exists r. split; [exact R|]. split; [exact M|].
        destruct S as [(b & Sb & C)|(U & k1 & v1 & I & K)].
        -- left. exists b. split; [exact Sb|]. intros bs F. inversion F as [|? c ? cs Hc F']; subst.
           cbn [snd] in Hc. unfold may_be in Hc. rewrite E in Hc. subst c. cbn. apply C. exact F'.
        -- right. split; [exact U|]. exists k1, v1. split; [right; exact I|exact K].
      * eexists. split; [reflexivity|]. split; [reflexivity|]. left. exists false. split; [reflexivity|].
        intros bs F. inversion F as [|? c ? cs Hc F']; subst. cbn [snd] in Hc. unfold may_be in Hc. rewrite E in Hc.
        subst c. reflexivity.
    + eexists. split; [reflexivity|]. split; [reflexivity|]. left. exists false. split; [reflexivity|].
      intros bs F. inversion F as [|? c ? cs Hc F']; subst. cbn [snd] in Hc. unfold may_be in Hc. rewrite E in Hc.
      subst c. reflexivity.
    + eexists. split; [reflexivity|]. split; [reflexivity|]. right. split; [reflexivity|].
      exists k, v. split; [left; reflexivity|]. unfold is_known. rewrite E. reflexivity.
Qed.

Lemma any_true_spec : forall l u, (forall k v, In (k, v) l -> bool_item v) ->
  exists r, any_true u l = Ok r /\ marks_of r = [] /\
    ((shape_of r = SBool true /\ forall bs, Forall2 (fun kv c => may_be (snd kv) c) l bs -> existsb (fun c => c) bs = true)
     \/ (shape_of r = SBool false /\ u = false /\
         forall bs, Forall2 (fun kv c => may_be (snd kv) c) l bs -> existsb (fun c => c) bs = false)
     \/ (shape_of r = SUnknown boolt "" /\ (u = true \/ exists k v, In (k, v) l /\ is_known v = false))).
Proof.
  induction l as [|[k v] l IH]; intros u H.
  - cbn [any_true]. destruct u; eexists; (split; [reflexivity|]); (split; [reflexivity|]).
    + right; right. auto.
    + right; left. split; [reflexivity|]. split; [reflexivity|]. intros bs F. inversion F. reflexivity.
  - assert (H' := fun k v I => H k v (or_intror I)).
    assert (Step : forall u', is_known v = true -> (forall c, may_be v c -> c = false) -> u' = u ->
      exists r, any_true u' l = Ok r /\ marks_of r = [] /\
    ((shape_of r = SBool true /\ forall bs, Forall2 (fun kv c => may_be (snd kv) c) ((k, v) :: l) bs -> existsb (fun c => c) bs = true)
     \/ (shape_of r = SBool false /\ u = false /\
         forall bs, Forall2 (fun kv c => may_be (snd kv) c) ((k, v) :: l) bs -> existsb (fun c => c) bs = false)
     \/ (shape_of r = SUnknown boolt "" /\ (u = true \/ exists k1 v1, In (k1, v1) ((k, v) :: l) /\ is_known v1 = false)))).
    { intros u' Kn Fa ->. destruct (IH u H') as (r & R & M & S). exists r. split; [exact R|]. split; [exact M|].
      destruct S as [(S & C)|[(S & U & C)|(S & U)]].
      - left. split; [exact S|]. intros bs F. inversion F as [|? c ? cs Hc F']; subst. cbn. rewrite (C cs F').
        apply orb_true_r.
      - right; left. split; [exact S|]. split; [exact U|]. intros bs F. inversion F as [|? c ? cs Hc F']; subst.
        cbn. rewrite (Fa c Hc), (C cs F'). reflexivity.
      - right; right. split; [exact S|]. destruct U as [U|(k1 & v1 & I & K)]; [left; exact U|].
        right. exists k1, v1. split; [right; exact I|exact K]. }
    cbn [any_true]. destruct (H k v (or_introl eq_refl)) as [(b & E)|[(t & E)|(t & p & E)]]; rewrite E.
    + destruct b.
      * eexists. split; [reflexivity|]. split; [reflexivity|]. left. split; [reflexivity|].
        intros bs F. inversion F as [|? c ? cs Hc F']; subst. cbn [snd] in Hc. unfold may_be in Hc. rewrite E in Hc.
        subst c. reflexivity.
      * apply Step; [unfold is_known; rewrite E; reflexivity| |reflexivity].
        intros c Hc. unfold may_be in Hc. rewrite E in Hc. exact Hc.
    + apply Step; [unfold is_known; rewrite E; reflexivity| |reflexivity].
      intros c Hc. unfold may_be in Hc. rewrite E in Hc. exact Hc.
    + assert (Kv : is_known v = false) by (unfold is_known; rewrite E; reflexivity).
      destruct (IH true H') as (r & R & M & S). exists r. split; [exact R|]. split; [exact M|].
      destruct S as [(S & C)|[(S & U & C)|(S & U)]].
      * left. split; [exact S|]. intros bs F. inversion F as [|? c ? cs Hc F']; subst. cbn. rewrite (C cs F').
        apply orb_true_r.
      * discriminate.
      * right; right. split; [exact S|]. right. exists k, v. split; [left; reflexivity|exact Kv].
Qed.

(* A function of one list of booleans that looks only at known lists. *)
Lemma bool_list_call : forall early impl ms l,
  call early (mkFunc [plain_param (list_of boolt)] None (static boolt)
         (fun args _ => match args with [v] => do l <- iterate v; impl l | _ => bad_args end))
       [Val ms (SList boolt) l]
  = (do r <- no_panic (impl (unmark_all l));
     Ok (with_marks (deep_marks (Val ms (SList boolt) l)) r)).
Proof.
  intros early impl ms l. unfold call. cbn [f_params f_var pair_args check_args].
  change (is_null (Val ms (SList boolt) l)) with false. cbn [andb type_of kind_of kind_eqb list_of].
  change (conforms (list_of boolt) (p_type (plain_param (list_of boolt)))) with true. cbn [negb bindr].
  cbn [map f_type static no_panic bindr existsb unknown_arg snd fst].
  change (is_known (Val ms (SList boolt) l)) with true. cbn [negb andb orb].
  cbn [flat_map]. unfold taken_marks, seen. cbn [fst snd p_marked plain_param f_impl].
  rewrite unmark_deep_eq, app_nil_r. cbn [iterate bindr]. reflexivity.
Qed.

Lemma unmark_items : forall l, (forall k v, In (k, v) l -> bool_item v) ->
  forall k v, In (k, v) (unmark_all l) -> bool_item v.
Proof.
  intros l H k v I. unfold unmark_all in I. apply in_map_iff in I. destruct I as ([k0 v0] & E & I).
  cbn [fst snd] in E. injection E as <- <-. unfold bool_item. rewrite shape_unmark_deep. exact (H k0 v0 I).
Qed.
Lemma unmark_may : forall l bs, Forall2 (fun kv c => may_be (snd kv) c) l bs ->
  Forall2 (fun kv c => may_be (snd kv) c) (unmark_all l) bs.
Proof.
  intros l bs F. induction F as [|[k v] c l bs H F IH]; constructor; [|exact IH].
  cbn [fst snd] in *. unfold may_be in *. rewrite shape_unmark_deep. exact H.
Qed.
Lemma unmark_unknown : forall l k v, In (k, v) (unmark_all l) -> is_known v = false ->
  exists k v, In (k, v) l /\ is_known v = false.
Proof.
  intros l k v I K. unfold unmark_all in I. apply in_map_iff in I. destruct I as ([k0 v0] & E & I).
  cbn [fst snd] in E. injection E as <- <-. exists k0, v0. split; [exact I|].
  unfold is_known in *. rewrite shape_unmark_deep in K. exact K.
Qed.

(* ----- types ----- *)

Section TyInd.
Variable P : ty -> Prop.
Hypothesis Ht : forall k l, (forall n t, In (n, t) l -> P t) -> P (Ty k l).
Lemma ty_ind' : forall t, P t.
Proof.
  fix IH 1. intros [k l]. apply Ht. induction l as [|[n0 t0] l IHl].
  - intros n t [].
  - intros n t [E|I].
    + injection E as _ E. rewrite <- E. apply IH.
    + exact (IHl n t I).
Qed.
End TyInd.

Lemma ty_eqb_eq : forall a b, ty_eqb a b = true <-> a = b.
Proof.
  induction a as [k l IH] using ty_ind'. intros [k' l']. cbn [ty_eqb]. split.
  - intros H. apply andb_true_iff in H. destruct H as [Hk Hl].
    assert (k = k') as <- by (destruct k, k'; try discriminate; reflexivity).
    f_equal. revert l' Hl. induction l as [|[n t] l IHl]; intros [|[n' t'] l'] H; try discriminate; [reflexivity|].
    apply andb_true_iff in H. destruct H as [H H3]. apply andb_true_iff in H. destruct H as [H1 H2].
    apply String.eqb_eq in H1. apply (IH n t (or_introl eq_refl)) in H2. subst.
    f_equal. apply IHl; [intros m u I; exact (IH m u (or_intror I))|exact H3].
  - intros E. injection E as <- <-. apply andb_true_iff. split; [destruct k; reflexivity|].
    induction l as [|[n t] l IHl]; [reflexivity|].
    rewrite String.eqb_refl, (proj2 (IH n t (or_introl eq_refl) t) eq_refl). cbn [andb].
    apply IHl. intros m u I. exact (IH m u (or_intror I)).
Qed.

Lemma conforms_dyn : forall t, conforms t dyn = true.
Proof. intros [k l]. reflexivity. Qed.

Lemma type_unmark_deep : forall v, type_of (unmark_deep v) = type_of v.
Proof.
  induction v as [ms s l IH] using value_ind'. rewrite unmark_deep_eq. destruct s; try reflexivity; cbn [type_of]; f_equal.
  - induction l as [|[k v] l IHl]; [reflexivity|]. cbn [unmark_all map fst snd].
    rewrite (IH k v (or_introl eq_refl)). f_equal. apply IHl. intros k' v' I. exact (IH k' v' (or_intror I)).
  - induction l as [|[k v] l IHl]; [reflexivity|]. cbn [unmark_all map fst snd].
    rewrite (IH k v (or_introl eq_refl)). f_equal. apply IHl. intros k' v' I. exact (IH k' v' (or_intror I)).
Qed.

(* ----- sensitive and nonsensitive ----- *)

Lemma call_value : forall early ft impl v,
  call early (mkFunc [value_param] None ft impl) [v]
  = (do t <- no_panic (ft [v]); do r <- no_panic (impl [v] t); Ok (with_marks [] r)).
Proof.
  intros early ft impl v. unfold call. cbn [f_params f_var pair_args check_args p_null p_dyn p_type value_param negb].
  rewrite andb_false_r, conforms_dyn. cbn [negb].
  replace (if kind_eqb (kind_of (type_of v)) KDyn then Ok false else Ok false) with (@Ok bool false)
    by (destruct (kind_eqb (kind_of (type_of v)) KDyn); reflexivity).
  cbn [bindr map f_type f_impl]. unfold seen. cbn [fst snd p_marked value_param].
  cbn [existsb]. unfold unknown_arg. cbn [fst snd p_unknown value_param negb]. rewrite andb_false_r. cbn [orb].
  reflexivity.
Qed.

(* ----- prefixes ----- *)

Lemma prefix_app : forall p s, prefix p s = true <-> exists q, s = p +++ q.
Proof.
  induction p as [|c p IH]; intros s.
  - split; [intros _; exists s; reflexivity|destruct s; reflexivity].
  - destruct s as [|d s]; cbn [prefix].
    + split; [discriminate|intros (q & E); discriminate].
    + destruct (ascii_dec c d) as [<-|N].
      * rewrite IH. split; intros (q & E); exists q; [rewrite E; reflexivity|injection E as E; exact E].
      * split; [discriminate|]. intros (q & E). injection E as E _. congruence.
Qed.

Lemma prefix_longer : forall p k r, String.length p <= String.length k ->
  (exists q, k +++ r = p +++ q) -> prefix p k = true.
Proof.
  induction p as [|c p IH]; intros k r L (q & E); [destruct k; reflexivity|].
  destruct k as [|d k]; [cbn in L; lia|]. cbn [String.append] in E. injection E as -> E.
  cbn [prefix]. destruct (ascii_dec c c) as [_|N]; [|congruence].
  apply (IH k r); [cbn in L; lia|]. exists q. exact E.
Qed.

(* ----- coalesce ----- *)

Section Coalesce.
Variable convert : value -> ty -> result value.

Lemma coalesce_spec : forall t args cs, Forall2 (fun a c => convert a t = Ok c) args cs ->
  (exists e, coalesce convert t args = Err e /\ forall c, In c cs -> passed_over t c)
  \/ exists pre c post, cs = (pre ++ c :: post)%list /\ (forall x, In x pre -> passed_over t x)
     /\ ~ passed_over t c
     /\ coalesce convert t args = Ok (if is_known c then c else unknown t).
Proof.
  intros t args cs F. induction F as [|a c args cs H F IH].
  - left. eexists. split; [reflexivity|intros c []].
  - cbn [coalesce]. rewrite H.
    assert (D : (passed_over t c /\ (if negb (is_known c) then Ok (unknown t) else if is_null c then coalesce convert t args
        else match shape_of c with
             | SStr "" => if ty_eqb t str then coalesce convert t args else Ok c
             | _ => Ok c end) = coalesce convert t args)
      \/ (~ passed_over t c /\ (if negb (is_known c) then Ok (unknown t) else if is_null c then coalesce convert t args
        else match shape_of c with
             | SStr "" => if ty_eqb t str then coalesce convert t args else Ok c
             | _ => Ok c end) = Ok (if is_known c then c else unknown t))).
    { clear IH F H. unfold passed_over, is_known, is_null.
      destruct (shape_of c) as [u p|u|s|n|b|u|u|u| |] eqn:S; cbn [negb];
        try (right; split; [intros [(x & X)|(_ & X)]; discriminate|reflexivity]).
      - left. split; [left; eauto|reflexivity].
      - destruct s as [|ch s].
        + destruct (ty_eqb t str) eqn:E.
          * apply ty_eqb_eq in E. left. split; [right; auto|reflexivity].
          * right. split; [|reflexivity]. intros [(x & X)|(X & _)]; [discriminate|].
            apply ty_eqb_eq in X. congruence.
        + right. split; [intros [(x & X)|(_ & X)]; discriminate|reflexivity]. }
    destruct D as [(Pc & ->)|(Nc & ->)].
    + destruct IH as [(e & Ee & All)|(pre & c' & post & -> & Pp & Nc & R)].
      * left. exists e. split; [exact Ee|]. intros x [<-|I]; [exact Pc|exact (All x I)].
      * right. exists (c :: pre), c', post. split; [reflexivity|]. split; [intros x [<-|I]; [exact Pc|exact (Pp x I)]|].
        split; [exact Nc|exact R].
    + right. exists [], c, cs. split; [reflexivity|]. split; [intros x []|]. split; [exact Nc|reflexivity].
Qed.
End Coalesce.

Lemma pair_var : forall p args, pair_args [] (Some p) args = Some (map (fun a => (p, a)) args).
Proof. induction args as [|a args IH]; [reflexivity|]. cbn [pair_args map]. rewrite IH. reflexivity. Qed.

Lemma all_checked : forall args, check_args (map (fun a => (all_param, a)) args) = Ok false.
Proof.
  induction args as [|a args IH]; [reflexivity|]. cbn [map check_args p_null p_dyn p_type all_param negb].
  rewrite andb_false_r, conforms_dyn. cbn [negb]. rewrite IH.
  destruct (kind_eqb (kind_of (type_of a)) KDyn); reflexivity.
Qed.
Lemma all_known : forall args, existsb unknown_arg (map (fun a => (all_param, a)) args) = false.
Proof.
  induction args as [|a args IH]; [reflexivity|]. cbn [map existsb]. unfold unknown_arg at 1.
  cbn [fst snd p_unknown all_param negb]. rewrite andb_false_r. exact IH.
Qed.
Lemma all_seen : forall args, map seen (map (fun a => (all_param, a)) args) = map unmark_deep args.
Proof. intros args. rewrite map_map. apply map_ext. reflexivity. Qed.
Lemma all_taken : forall args, flat_map taken_marks (map (fun a => (all_param, a)) args) = flat_map deep_marks args.
Proof. induction args as [|a args IH]; [reflexivity|]. cbn [map flat_map]. rewrite IH. reflexivity. Qed.

(* ----- equality ----- *)

Section Equality.
Variable same_number : number -> number -> bool.

Definition equal_elems : list (string * value) -> list (string * value) -> option bool :=
  fix go l l' := match l, l' with
  | (k, x) :: l, (k', y) :: l' =>
    if negb (String.eqb k k') then Some false
    else match equals same_number x y with
    | None => None
    | Some false => Some false
    | Some true => go l l'
    end
  | _, _ => Some true
  end.

Definition settled (v : value) : Prop := wholly_known v = true /\ has_dyn (type_of v) = false.

Lemma wholly_known_in : forall ms s l, wholly_known (Val ms s l) = true ->
  (forall t p, s <> SUnknown t p) /\ forall k v, In (k, v) l -> wholly_known v = true.
Proof.
  intros ms s l H. split; [intros t p ->; discriminate|].
  assert (G : (fix go l := match l with [] => true | (_, x) :: l => wholly_known x && go l end) l = true)
    by (destruct s; cbn [wholly_known] in H; try exact H; discriminate).
  clear H. induction l as [|[k0 v0] l IH]; intros k v I; [destruct I|].
  apply andb_true_iff in G. destruct G as [G1 G2]. destruct I as [E|I]; [injection E as <- <-; exact G1|exact (IH G2 k v I)].
Qed.

Lemma has_dyn_args : forall k l n t, has_dyn (Ty k l) = false -> In (n, t) l -> has_dyn t = false.
Proof.
  intros k l n t H I. cbn [has_dyn] in H. apply orb_false_iff in H. destruct H as [_ H].
  induction l as [|[n0 t0] l IH]; [destruct I|]. apply orb_false_iff in H. destruct H as [H1 H2].
  destruct I as [E|I]; [injection E as <- <-; exact H1|exact (IH H2 I)].
Qed.

Lemma settled_in : forall ms s l k v, typed (Val ms s l) -> settled (Val ms s l) -> In (k, v) l -> typed v /\ settled v.
Proof.
  intros ms s l k v T (W & D) I. destruct (wholly_known_in _ _ _ W) as [_ Wl]. specialize (Wl k v I).
  inversion T as [| | | | |? t ? H|? t ? H|? t ? _ H|? ? H|? ? _ H]; subst; try (destruct I; fail).
  - destruct (H k v I) as [Tv Et]. split; [exact Tv|]. split; [exact Wl|]. rewrite Et.
    apply (has_dyn_args KList [("", t)] "" t D). left. reflexivity.
  - destruct (H k v I) as [Tv Et]. split; [exact Tv|]. split; [exact Wl|]. rewrite Et.
    apply (has_dyn_args KSet [("", t)] "" t D). left. reflexivity.
  - destruct (H k v I) as [Tv Et]. split; [exact Tv|]. split; [exact Wl|]. rewrite Et.
    apply (has_dyn_args KMap [("", t)] "" t D). left. reflexivity.
  - specialize (H k v I). split; [exact H|]. split; [exact Wl|]. cbn [type_of] in D.
    apply (has_dyn_args _ _ "" _ D). clear -I. induction l as [|[k0 v0] l IH]; [destruct I|].
    destruct I as [E|I]; [injection E as <- <-; left; reflexivity|right; exact (IH I)].
  - specialize (H k v I). split; [exact H|]. split; [exact Wl|]. cbn [type_of] in D.
    apply (has_dyn_args _ _ k _ D). clear -I. induction l as [|[k0 v0] l IH]; [destruct I|].
    destruct I as [E|I]; [injection E as <- <-; left; reflexivity|right; exact (IH I)].
Qed.

Definition group (s : shape) : bool := match s with SList _ | SSet _ | SMap _ | STuple | SObj => true | _ => false end.

Lemma equal_elems_spec : forall l l',
  (forall k v, In (k, v) l -> forall k' w, In (k', w) l' -> exists b, equals same_number v w = Some b
     /\ (b = true <-> equal_values same_number v w)) ->
  List.length l = List.length l' ->
  exists b, equal_elems l l' = Some b /\ (b = true <-> map fst l = map fst l'
     /\ Forall2 (fun a b => equal_values same_number (snd a) (snd b)) l l').
Proof.
  induction l as [|[k v] l IH]; intros [|[k' w] l'] H L; try discriminate.
  - exists true. split; [reflexivity|]. split; [intros _; split; [reflexivity|constructor]|reflexivity].
  - cbn [equal_elems]. destruct (String.eqb k k') eqn:Ek; cbn [negb].
    + apply String.eqb_eq in Ek. subst k'.
      destruct (H k v (or_introl eq_refl) k w (or_introl eq_refl)) as (b & -> & B). destruct b.
      * destruct (IH l') as (b & E & B'); [intros k1 v1 I1 k2 w2 I2; exact (H k1 v1 (or_intror I1) k2 w2 (or_intror I2))|cbn in L; lia|].
        exists b. split; [exact E|]. rewrite B'. cbn [map fst]. split.
        -- intros [E1 F]. split; [rewrite E1; reflexivity|]. constructor; [cbn; tauto|exact F].
        -- intros [E1 F]. injection E1 as E1. inversion F; subst. auto.
      * exists false. split; [reflexivity|]. split; [discriminate|]. intros [_ F]. inversion F as [|? ? ? ? Q _]; subst.
        cbn in Q. tauto.
    + exists false. split; [reflexivity|]. split; [discriminate|]. intros [E _]. cbn in E. injection E as -> _.
      rewrite String.eqb_refl in Ek. discriminate.
Qed.

Lemma equal_types : forall v w, equal_values same_number v w -> is_null v = false -> type_of v = type_of w.
Proof. intros v w H N. destruct H; try discriminate; try reflexivity. assumption. Qed.

Lemma equals_spec : forall v w, typed v -> settled v -> typed w -> settled w ->
  exists b, equals same_number v w = Some b /\ (b = true <-> equal_values same_number v w).
Proof.
  induction v as [ms s l IH] using value_ind'. intros [ms' s' l'] Tv Sv Tw Sw.
  destruct (wholly_known_in _ _ _ (proj1 Sv)) as [Ks _]. destruct (wholly_known_in _ _ _ (proj1 Sw)) as [Ks' _].
  assert (C : (exists t, s = SNull t) \/ (forall t, s <> SNull t)) by (destruct s; eauto; right; discriminate).
  assert (C' : (exists t, s' = SNull t) \/ (forall t, s' <> SNull t)) by (destruct s'; eauto; right; discriminate).
  destruct C as [(t & ->)|Ns].
  { destruct C' as [(t' & ->)|Ns'].
    - exists true. split; [reflexivity|]. split; [intros _; constructor|reflexivity].
    - exists false. split.
      + destruct s'; try reflexivity; [exfalso; eapply Ks'; reflexivity|exfalso; eapply Ns'; reflexivity].
      + split; [discriminate|]. intros E. exfalso. inversion E; subst; try (eapply Ns'; reflexivity); contradiction. }
  destruct C' as [(t' & ->)|Ns'].
  { exists false. split.
    - destruct s; try reflexivity; [exfalso; eapply Ks; reflexivity|exfalso; eapply Ns; reflexivity].
    - split; [discriminate|]. intros E. exfalso. inversion E; subst; try (eapply Ns; reflexivity); contradiction. }
  assert (Eq : equals same_number (Val ms s l) (Val ms' s' l')
    = if negb (ty_eqb (type_of (Val ms s l)) (type_of (Val ms' s' l'))) then Some false
      else if negb (same_scalar same_number s s') then Some false
      else if negb (Nat.eqb (List.length l) (List.length l')) then Some false
      else equal_elems l l').
  { destruct Sv as [_ D1], Sw as [_ D2].
    assert (D : has_dyn (type_of (Val ms s l)) || has_dyn (type_of (Val ms' s' l')) = false) by (rewrite D1, D2; reflexivity).
    destruct s; try (exfalso; eapply Ks; reflexivity); try (exfalso; eapply Ns; reflexivity);
    destruct s'; try (exfalso; eapply Ks'; reflexivity); try (exfalso; eapply Ns'; reflexivity);
    cbn [equals]; rewrite D; reflexivity. }
  rewrite Eq. clear Eq.
  destruct (ty_eqb (type_of (Val ms s l)) (type_of (Val ms' s' l'))) eqn:Et; cbn [negb].
  2:{ exists false. split; [reflexivity|]. split; [discriminate|]. intros E.
      assert (X : type_of (Val ms s l) = type_of (Val ms' s' l')).
      { apply equal_types; [exact E|]. destruct s; try reflexivity. exfalso; eapply Ns; reflexivity. }
      apply ty_eqb_eq in X. congruence. }
  apply ty_eqb_eq in Et.
  destruct (same_scalar same_number s s') eqn:Es; cbn [negb].
  2:{ exists false. split; [reflexivity|]. split; [discriminate|]. intros E. exfalso. inversion E; subst; cbn in Es; try congruence.
      - rewrite String.eqb_refl in Es. discriminate.
      - destruct b; discriminate.
      - destruct s'; cbn in Es; try discriminate; try contradiction. }
  destruct (Nat.eqb (List.length l) (List.length l')) eqn:El; cbn [negb].
  2:{ exists false. split; [reflexivity|]. split; [discriminate|]. intros E. exfalso. apply Nat.eqb_neq in El.
      inversion E as [| | | |? ? ? ? ? _ _ F _]; subst; try (apply El; reflexivity); [eapply Ns; reflexivity|].
      apply El. clear -F. induction F; cbn; congruence. }
  apply Nat.eqb_eq in El.
  destruct (equal_elems_spec l l') as (b & Eb & B); [|exact El|].
  { intros k v I k' w I'. destruct (settled_in _ _ _ _ _ Tv Sv I), (settled_in _ _ _ _ _ Tw Sw I').
    apply (IH k v I); assumption. }
  exists b. split; [exact Eb|]. rewrite B. clear B Eb b IH. split.
  - intros [E1 F].
    destruct s; try (exfalso; eapply Ks; reflexivity); try (exfalso; eapply Ns; reflexivity);
    destruct s'; try (exfalso; eapply Ks'; reflexivity); try (exfalso; eapply Ns'; reflexivity);
    try discriminate Et;
    try (inversion Tv; inversion Tw; subst; cbn in Es).
    all: try (apply String.eqb_eq in Es; subst; constructor; fail).
    all: try (constructor; exact Es).
    all: try (apply Bool.eqb_prop in Es; subst; constructor; fail).
    all: try (cbn [type_of] in Et; injection Et as Et; subst).
    all: apply eq_group; [exact I|exact E1|exact F|]; try reflexivity; cbn [type_of]; f_equal; assumption.
  - intros E. inversion E; subst; try (split; [reflexivity|constructor]); [exfalso; eapply Ns; reflexivity|auto].
Qed.
End Equality.

(* ----- values without their marks ----- *)

Lemma unmark_keys : forall l, map fst (unmark_all l) = map fst l.
Proof. intros l. unfold unmark_all. rewrite map_map. reflexivity. Qed.
Lemma unmark_in : forall l k v, In (k, v) (unmark_all l) -> exists w, v = unmark_deep w /\ In (k, w) l.
Proof.
  intros l k v I. unfold unmark_all in I. apply in_map_iff in I. destruct I as ([k0 v0] & E & I).
  cbn [fst snd] in E. injection E as <- <-. exists v0. auto.
Qed.

Lemma typed_unmark : forall v, typed v -> typed (unmark_deep v).
Proof.
  induction v as [ms s l IH] using value_ind'. intros T. rewrite unmark_deep_eq.
  inversion T as [| | | | |? t ? H|? t ? H|? t ? N H|? ? H|? ? N H]; subst; try constructor;
    try (unfold keys in *; rewrite unmark_keys; exact N);
    intros k v I; apply unmark_in in I; destruct I as (w & -> & I); specialize (H k w I);
    try (rewrite type_unmark_deep; destruct H as [H1 H2]; split; [|exact H2]); apply (IH k w I); assumption.
Qed.

Lemma known_unmark : forall v, wholly_known (unmark_deep v) = wholly_known v.
Proof.
  induction v as [ms s l IH] using value_ind'. rewrite unmark_deep_eq.
  assert (G : (fix go l := match l with [] => true | (_, x) :: l => wholly_known x && go l end) (unmark_all l)
            = (fix go l := match l with [] => true | (_, x) :: l => wholly_known x && go l end) l).
  { induction l as [|[k v] l IHl]; [reflexivity|]. cbn [unmark_all map fst snd].
    rewrite (IH k v (or_introl eq_refl)). f_equal. apply IHl. intros k' v' I. exact (IH k' v' (or_intror I)). }
  destruct s; cbn [wholly_known]; try exact G; reflexivity.
Qed.
Lemma settled_unmark : forall v, settled v -> settled (unmark_deep v).
Proof. intros v [W D]. split; [rewrite known_unmark; exact W|rewrite type_unmark_deep; exact D]. Qed.

Lemma eqv_unmark : forall sn v w, equal_values sn (unmark_deep v) (unmark_deep w) <-> equal_values sn v w.
Proof.
  intros sn. induction v as [ms s l IH] using value_ind'. intros [ms' s' l']. rewrite !unmark_deep_eq.
  assert (F : forall l', Forall2 (fun a b => equal_values sn (snd a) (snd b)) (unmark_all l) (unmark_all l')
              <-> Forall2 (fun a b => equal_values sn (snd a) (snd b)) l l').
  { clear l'. induction l as [|[k v] l IHl]; intros [|[k' w] l']; cbn [unmark_all map fst snd];
      (split; intros H; inversion H as [|? ? ? ? H1 H2]; subst; constructor); cbn [snd] in *.
    - apply (IH k v (or_introl eq_refl)). exact H1.
    - apply IHl; [intros k0 v0 I; exact (IH k0 v0 (or_intror I))|exact H2].
    - apply (IH k v (or_introl eq_refl)). exact H1.
    - apply IHl; [intros k0 v0 I; exact (IH k0 v0 (or_intror I))|exact H2]. }
  assert (Ty1 : forall ms s l, type_of (Val [] s (unmark_all l)) = type_of (Val ms s l)).
  { intros m0 s0 l0. rewrite <- (unmark_deep_eq m0). apply type_unmark_deep. }
  assert (Nil : forall l, unmark_all l = [] -> l = []) by (intros [|]; [reflexivity|discriminate]).
  split; intros H; inversion H as [| | | |? ? ? ? ? G E Q T]; subst;
    repeat match goal with X : [] = unmark_all ?x |- _ => symmetry in X; apply Nil in X; subst x
                         | X : unmark_all ?x = [] |- _ => apply Nil in X; subst x end;
    try (constructor; fail); try (constructor; assumption).
  - apply eq_group; [exact G|rewrite !unmark_keys in E; exact E|apply F; exact Q|].
    rewrite (Ty1 ms), (Ty1 ms') in T. exact T.
  - apply eq_group; [exact G|rewrite !unmark_keys; exact E|apply F; exact Q|].
    rewrite (Ty1 ms), (Ty1 ms'). exact T.
Qed.

(* ----- index ----- *)

Lemma index_from_spec : forall sn w l i, typed w -> settled w -> (forall k v, In (k, v) l -> typed v /\ settled v) ->
  (exists n k v, nth_error l n = Some (k, v) /\ equal_values sn v w
     /\ (forall n' k' v', (n' < n)%nat -> nth_error l n' = Some (k', v') -> ~ equal_values sn v' w)
     /\ index_from sn i l w = Ok (num_val (int_val (i + Z.of_nat n))))
  \/ ((forall k v, In (k, v) l -> ~ equal_values sn v w) /\ exists e, index_from sn i l w = Err e).
Proof.
  intros sn w l. induction l as [|[k v] l IH]; intros i Tw Sw H.
  - right. split; [intros k v []|eexists; reflexivity].
  - destruct (H k v (or_introl eq_refl)) as [Tv Sv]. destruct (equals_spec sn v w Tv Sv Tw Sw) as (b & E & B).
    cbn [index_from]. rewrite E. destruct b.
    + left. exists 0%nat, k, v. split; [reflexivity|]. split; [tauto|]. split; [intros; lia|].
      rewrite Z.add_0_r. reflexivity.
    + assert (Nv : ~ equal_values sn v w) by (intros X; apply B in X; discriminate).
      destruct (IH (i + 1)%Z Tw Sw (fun k v I => H k v (or_intror I))) as [(n & k1 & v1 & E1 & Q & F & R)|(F & R)].
      * left. exists (S n), k1, v1. split; [exact E1|]. split; [exact Q|]. split.
        -- intros [|n'] k' v' L E'; [cbn in E'; injection E' as <- <-; exact Nv|].
           apply (F n' k' v'); [lia|exact E'].
        -- rewrite R. do 3 f_equal. lia.
      * right. split; [|exact R]. intros k1 v1 [X|I]; [injection X as <- <-; exact Nv|exact (F k1 v1 I)].
Qed.

Lemma nth_unmark : forall l n, nth_error (unmark_all l) n = option_map (fun kv => (fst kv, unmark_deep (snd kv))) (nth_error l n).
Proof. intros l n. unfold unmark_all. apply nth_error_map. Qed.

Lemma not_dyn : forall t, has_dyn t = false -> kind_eqb (kind_of t) KDyn = false.
Proof. intros [k l] H. cbn [has_dyn] in H. apply orb_false_iff in H. exact (proj1 H). Qed.
Lemma known_top : forall v, wholly_known v = true -> is_known v = true.
Proof. intros [ms s l] H. destruct s; try reflexivity. discriminate. Qed.

(* Two arguments of any type, not null, known. *)
Lemma call_any2 : forall early ft impl v w, is_null v = false -> is_null w = false -> settled v -> settled w ->
  call early (mkFunc [any_param; any_param] None ft impl) [v; w]
  = (do t <- no_panic (ft [unmark_deep v; unmark_deep w]);
     do r <- no_panic (impl [unmark_deep v; unmark_deep w] t);
     Ok (with_marks (deep_marks v ++ deep_marks w) r)).
Proof.
  intros early ft impl v w Nv Nw [Wv Dv] [Ww Dw]. unfold call. cbn [f_params f_var pair_args check_args].
  rewrite Nv, Nw, (not_dyn _ Dv), (not_dyn _ Dw). cbn [andb p_type any_param]. rewrite !conforms_dyn.
  cbn [negb bindr map f_type f_impl existsb]. unfold unknown_arg. cbn [fst snd].
  rewrite (known_top _ Wv), (known_top _ Ww). cbn [negb andb orb flat_map].
  unfold seen, taken_marks. cbn [fst snd p_marked any_param]. rewrite app_nil_r. reflexivity.
Qed.

(* ----- lookup ----- *)

Lemma obj_type_lookup : forall ms l key,
  lookup key (ty_args (type_of (Val ms SObj l))) = option_map type_of (lookup key l).
Proof.
  intros ms l key. cbn [type_of ty_args]. induction l as [|[k v] l IH]; [reflexivity|].
  cbn [lookup]. destruct (eq_dec key k); [reflexivity|exact IH].
Qed.

Section Lookup.
Variable convert : value -> ty -> result value.
Variable quoted : string -> string.

Definition lookup_param (v : value) : param * value := (mkParam dyn true true true true, v).
Definition is_lookup_shape (s : shape) : Prop := s = SObj \/ exists t, s = SMap t.

Lemma call_lookup : forall early mm s l km key ds, is_lookup_shape s ->
  call early (lookup_func convert quoted) (Val mm s l :: Val km (SStr key) [] :: ds)
  = (do t <- no_panic (lookup_type convert quoted (Val mm s l :: Val km (SStr key) [] :: ds));
     do r <- no_panic (lookup_impl convert quoted (Val mm s l :: Val km (SStr key) [] :: ds) t);
     Ok (with_marks [] r)).
Proof.
  intros early mm s l km key ds Hs. unfold call, lookup_func. cbn [f_params f_var pair_args]. rewrite pair_var.
  set (p := mkParam dyn true true true true).
  assert (C : check_args (map (fun a => (p, a)) ds) = Ok false).
  { induction ds as [|a ds IH]; [reflexivity|]. cbn [map check_args p_null p_dyn p_type p negb].
    rewrite andb_false_r, conforms_dyn. cbn [negb]. fold p. rewrite IH. destruct (kind_eqb (kind_of (type_of a)) KDyn); reflexivity. }
  assert (U : existsb unknown_arg (map (fun a => (p, a)) ds) = false).
  { clear C. induction ds as [|a ds IH]; [reflexivity|]. cbn [map existsb]. rewrite IH. unfold unknown_arg.
    cbn [fst snd p_unknown p negb]. rewrite andb_false_r. reflexivity. }
  assert (Se : map seen (map (fun a => (p, a)) ds) = ds).
  { clear C U. induction ds as [|a ds IH]; [reflexivity|]. cbn [map]. rewrite IH. reflexivity. }
  assert (Ta : flat_map taken_marks (map (fun a => (p, a)) ds) = []).
  { clear C U Se. induction ds as [|a ds IH]; [reflexivity|]. cbn [map flat_map]. rewrite IH. reflexivity. }
  assert (N : is_null (Val mm s l) = false) by (destruct Hs as [->|(t & ->)]; reflexivity).
  assert (D : kind_eqb (kind_of (type_of (Val mm s l))) KDyn = false) by (destruct Hs as [->|(t & ->)]; reflexivity).
  assert (K : is_known (Val mm s l) = true) by (destruct Hs as [->|(t & ->)]; reflexivity).
  cbn [check_args]. rewrite N, D. cbn [andb p_type]. rewrite conforms_dyn. cbn [negb].
  change (is_null (Val km (SStr key) [])) with false.
  change (kind_eqb (kind_of (type_of (Val km (SStr key) []))) KDyn) with false.
  change (conforms (type_of (Val km (SStr key) [])) str) with true. cbn [andb negb]. rewrite C. cbn [bindr].
  cbn [map existsb flat_map]. rewrite U, Se, Ta. unfold unknown_arg. cbn [fst snd]. rewrite K.
  cbn [negb andb orb is_known shape_of]. unfold seen, taken_marks. cbn [fst snd p_marked app f_type f_impl].
  reflexivity.
Qed.

Lemma no_panic_Ok : forall A (r : result A) x, no_panic r = Ok x <-> r = Ok x.
Proof. intros A [x|e|e] y; cbn; split; congruence. Qed.

Lemma lookup_impl_known : forall mm s l km key ds t, is_lookup_shape s ->
  lookup_impl convert quoted (Val mm s l :: Val km (SStr key) [] :: ds) t
  = match lookup key l with
    | Some v => Ok (with_marks (union mm km) v)
    | None =>
      match ds with
      | [d] => do v <- convert d t; Ok (with_marks (union mm km) v)
      | _ => Err ("lookup failed to find key " +++ redact quoted key km)
      end
    end.
Proof. intros mm s l km key ds t [->|(u & ->)]; reflexivity. Qed.
End Lookup.
