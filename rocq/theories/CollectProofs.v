(* Proofs about type discovery (C12, C13). *)

From Verif Require Import Base GoType CollectModel CollectSpec.

(* ------------------------------------------------------------------ strings *)

Lemma list_ascii_app : forall a b, list_ascii_of_string (a +++ b) = list_ascii_of_string a ++ list_ascii_of_string b.
Proof. intros a b; induction a as [|c a IH]; simpl; [reflexivity|rewrite IH; reflexivity]. Qed.

Lemma list_ascii_inj : forall a b, list_ascii_of_string a = list_ascii_of_string b -> a = b.
Proof.
  intros a b H. rewrite <- (string_of_list_ascii_of_string a), <- (string_of_list_ascii_of_string b), H. reflexivity.
Qed.

Lemma last_sep : forall (c : ascii) (l1 l1' l2 l2' : list ascii), ~ In c l2 -> ~ In c l2' ->
  l1 ++ c :: l2 = l1' ++ c :: l2' -> l2 = l2'.
Proof.
  induction l1 as [|x l1 IH]; intros l1' l2 l2' H2 H2' H.
  - destruct l1' as [|y l1']; simpl in H; [congruence|].
    inversion H; subst. exfalso; apply H2. apply in_or_app; right; left; reflexivity.
  - destruct l1' as [|y l1']; simpl in H.
    + inversion H; subst. exfalso; apply H2'. apply in_or_app; right; left; reflexivity.
    + inversion H. eapply IH; eauto.
Qed.

Lemma qualified_inj : forall p p' n n', ~ In "."%char (list_ascii_of_string n) ->
  ~ In "."%char (list_ascii_of_string n') -> (p +++ "." +++ n) = (p' +++ "." +++ n') -> n = n'.
Proof.
  intros p p' n n' H H' E. apply (f_equal list_ascii_of_string) in E.
  rewrite !list_ascii_app in E. simpl in E. apply list_ascii_inj. eapply last_sep; eauto.
Qed.

Lemma qualified_dot : forall p n, In "."%char (list_ascii_of_string (p +++ "." +++ n)).
Proof. intros p n. rewrite !list_ascii_app. apply in_or_app; right; left; reflexivity. Qed.

Lemma exists_slash : forall l, existsb (fun d => Ascii.eqb d "/") l = true <-> In "/"%char l.
Proof.
  intros l. rewrite existsb_exists. split.
  - intros [x [Hin Hx]]. apply Ascii.eqb_eq in Hx; subst; exact Hin.
  - intros H. exists "/"%char. split; [exact H|reflexivity].
Qed.

Lemma last_part_spec : forall s, last_element s (last_part s).
Proof.
  intros s; induction s as [|c s IH]; [split; [intros []|left; reflexivity]|]. cbn [last_part].
  destruct (existsb (fun d => Ascii.eqb d "/") (list_ascii_of_string s)) eqn:Es.
  - destruct IH as [Hn [E|[dir E]]].
    + exfalso. apply Hn. rewrite <- E. apply exists_slash; exact Es.
    + split; [exact Hn|]. right. exists (String c dir). simpl. rewrite E at 1. reflexivity.
  - assert (Hs : ~ In "/"%char (list_ascii_of_string s)) by (rewrite <- exists_slash, Es; discriminate).
    destruct (Ascii.eqb c "/") eqn:Ec.
    + apply Ascii.eqb_eq in Ec; subst c. split; [exact Hs|]. right. exists "". reflexivity.
    + split; [|left; reflexivity]. intros [H|H]; [subst c; discriminate|contradiction].
Qed.

Lemma last_element_unique : forall s q q', last_element s q -> last_element s q' -> q = q'.
Proof.
  intros s q q' [Hn Hq] [Hn' Hq'].
  assert (S : forall d r, In "/"%char (list_ascii_of_string (d +++ "/" +++ r)))
    by (intros d r; rewrite list_ascii_app; apply in_or_app; right; left; reflexivity).
  destruct Hq as [Hq|[d Hq]], Hq' as [Hq'|[d' Hq']].
  - congruence.
  - exfalso. apply Hn. rewrite <- Hq, Hq'. apply S.
  - exfalso. apply Hn'. rewrite <- Hq', Hq. apply S.
  - rewrite Hq in Hq'. apply (f_equal list_ascii_of_string) in Hq'. rewrite !list_ascii_app in Hq'.
    apply list_ascii_inj. eapply (last_sep "/"%char); eauto.
Qed.

Section Proofs.
Variable E : env.
Variable impls : list (string * list (option gtype)).

Local Notation collect := (collect E impls).
Local Notation inside := (inside E impls).
Local Notation reaches := (reaches E impls).
Local Notation is_struct := (is_struct E).
Local Notation strip := (strip E).
Definition key_m (n : tid) (k : string) : Prop :=
  exists d, nth_error E n = Some d /\
    (k = n_name d \/ (n_pkg d <> "" /\ k = last_part (n_pkg d) +++ "." +++ n_name d)).
Local Notation key_of := key_m.

Definition deref (t0 : gtype) : gtype := match under E t0 with TPtr e => e | _ => t0 end.

Lemma strip_deref : forall t, strip t (deref t).
Proof.
  intros t. unfold deref. destruct (under E t) eqn:Eu; try (apply strip_none; intros e; rewrite Eu; discriminate).
  apply strip_ptr; exact Eu.
Qed.

Lemma strip_fun : forall t u, strip t u -> u = deref t.
Proof.
  intros t u H; destruct H as [t e He|t Hn]; unfold deref.
  - rewrite He; reflexivity.
  - destruct (under E t) eqn:Eu; try reflexivity. exfalso; eapply Hn; eauto.
Qed.

Lemma somes_in : forall A (l : list (option A)) a, In a (somes l) <-> In (Some a) l.
Proof.
  intros A l a; induction l as [|[b|] l IH]; simpl.
  - tauto.
  - rewrite IH. split; intros [H|H]; auto; left; congruence.
  - rewrite IH. split; [auto|]. intros [H|H]; [discriminate|exact H].
Qed.

(* The keys inserted for a struct. *)
Definition register (n : tid) (d : named) (ref : list (string * tid)) : list (string * tid) :=
  let ref1 := insert (n_name d) n ref in
  if string_dec (n_pkg d) "" then ref1 else insert (last_part (n_pkg d) +++ "." +++ n_name d) n ref1.

(* One unfolding of collect, as a case analysis. *)
Inductive cstep (t : gtype) (ref : list (string * tid)) : (nat -> option (list (string * tid))) -> Prop :=
| cs_stop : (forall u, ~ inside t u) ->
    (forall n fs, is_struct t n fs -> exists d, nth_error E n = Some d /\
       (n_name d = "" \/ exists v, lookup (n_name d) ref = Some v)) ->
    cstep t ref (fun _ => Some ref)
| cs_one : forall e, inside t e -> (forall u, inside t u -> u = e) -> (forall n fs, ~ is_struct t n fs) ->
    cstep t ref (fun fuel => collect fuel e ref)
| cs_many : forall l, (forall u, inside t u <-> In u l) -> (forall n fs, ~ is_struct t n fs) ->
    cstep t ref (fun fuel => over (collect fuel) l ref)
| cs_struct : forall n fs d, is_struct t n fs -> (forall u, ~ inside t u) -> nth_error E n = Some d ->
    n_name d <> "" -> lookup (n_name d) ref = None ->
    cstep t ref (fun fuel => over (collect fuel) (map ftype fs) (register n d ref)).

Lemma collect_cases : forall t ref, exists k, cstep t ref k /\ forall fuel, collect (S fuel) t ref = k fuel.
Proof.
  intros t ref.
  assert (Hins : forall u, inside t u -> (exists e, under E (deref t) = TSlice e /\ u = e) \/
     (exists k e, under E (deref t) = TMap k e /\ u = e) \/
     (exists ms l, under E (deref t) = TIface ms /\ lookup (type_name E (deref t)) impls = Some l /\ In (Some u) l)).
  { intros u Hu; inversion Hu; subst; match goal with [ H : strip _ _ |- _ ] => apply strip_fun in H; subst end.
    - left; eauto.
    - right; left; eauto.
    - right; right; eauto. }
  assert (Hstr : forall n fs, is_struct t n fs -> deref t = TNamed n /\ under E (deref t) = TStruct fs).
  { intros n fs [Hs Hu]. apply strip_fun in Hs. rewrite <- Hs. auto. }
  pose proof (strip_deref t) as Hsd.
  cbn [CollectModel.collect].
  change (match under E t with TPtr e => e | _ => t end) with (deref t).
  destruct (under E (deref t)) as [nn|pe|se|ae|mk me|fs|ms|bk] eqn:Eu.
  - exfalso; eapply under_not_named; eauto.
  - exists (fun _ => Some ref); split; [|reflexivity]. apply cs_stop.
    + intros u Hu; destruct (Hins u Hu) as [[e [H _]]|[[k [e [H _]]]|[ms [l [H _]]]]]; discriminate.
    + intros n fs Hs; destruct (Hstr n fs Hs); discriminate.
  - exists (fun fuel => collect fuel se ref); split; [|reflexivity]. apply cs_one.
    + eapply in_slice; eauto.
    + intros u Hu; destruct (Hins u Hu) as [[e [H ->]]|[[k [e [H _]]]|[ms [l [H _]]]]]; congruence.
    + intros n fs Hs; destruct (Hstr n fs Hs); discriminate.
  - exists (fun _ => Some ref); split; [|reflexivity]. apply cs_stop.
    + intros u Hu; destruct (Hins u Hu) as [[e [H _]]|[[k [e [H _]]]|[ms [l [H _]]]]]; discriminate.
    + intros n fs Hs; destruct (Hstr n fs Hs); discriminate.
  - exists (fun fuel => collect fuel me ref); split; [|reflexivity]. apply cs_one.
    + eapply in_map; eauto.
    + intros u Hu; destruct (Hins u Hu) as [[e [H ->]]|[[k [e [H ->]]]|[ms [l [H _]]]]]; congruence.
    + intros n fs Hs; destruct (Hstr n fs Hs); discriminate.
  - assert (Hno : forall u, ~ inside t u).
    { intros u Hu; destruct (Hins u Hu) as [[e [H _]]|[[k [e [H _]]]|[ms [l [H _]]]]]; discriminate. }
    destruct (deref t) as [n|pe|se|ae|mk me|gs|ms|bk] eqn:Ed;
      try (exists (fun _ => Some ref); split; [|reflexivity]; apply cs_stop;
           [exact Hno|intros n' fs' Hs; destruct (Hstr n' fs' Hs); discriminate]).
    destruct (nth_error E n) as [d|] eqn:En.
    2:{ exfalso. unfold under in Eu. rewrite En in Eu. discriminate. }
    destruct (string_dec (n_name d) "") as [Hemp|Hne].
    { exists (fun _ => Some ref); split; [|reflexivity]. apply cs_stop; [exact Hno|].
      intros n' fs' Hs. destruct (Hstr n' fs' Hs) as [H1 _]. inversion H1; subst. eauto. }
    destruct (lookup (n_name d) ref) as [v|] eqn:El.
    { exists (fun _ => Some ref); split; [|reflexivity]. apply cs_stop; [exact Hno|].
      intros n' fs' Hs. destruct (Hstr n' fs' Hs) as [H1 _]. inversion H1; subst. eauto. }
    exists (fun fuel => over (collect fuel) (map ftype fs) (register n d ref)). split; [|reflexivity].
    apply cs_struct; auto. split; auto.
  - assert (Hns : forall n fs, ~ is_struct t n fs).
    { intros n fs Hs; destruct (Hstr n fs Hs); discriminate. }
    destruct (lookup (type_name E (deref t)) impls) as [l|] eqn:El.
    + exists (fun fuel => over (collect fuel) (somes l) ref). split; [|reflexivity]. apply cs_many; [|exact Hns].
      intros u. rewrite somes_in. split.
      * intros Hu; destruct (Hins u Hu) as [[e [H _]]|[[k [e [H _]]]|[ms' [l' [H [H1 H2]]]]]]; try discriminate.
        inversion H1; subst; exact H2.
      * intros Hin. eapply in_impl; eauto.
    + exists (fun _ => Some ref). split; [|reflexivity]. apply cs_stop.
      * intros u Hu; destruct (Hins u Hu) as [[e [H _]]|[[k [e [H _]]]|[ms' [l' [H [H1 H2]]]]]]; try discriminate.
      * intros n fs Hs. exfalso; eapply Hns; eauto.
  - exists (fun _ => Some ref); split; [|reflexivity]. apply cs_stop.
    + intros u Hu; destruct (Hins u Hu) as [[e [H _]]|[[k [e [H _]]]|[ms [l [H _]]]]]; discriminate.
    + intros n fs Hs; destruct (Hstr n fs Hs); discriminate.
Qed.

(* --------------------------------------------------------------------- fuel *)

Lemma over_mono : forall (f g : gtype -> list (string * tid) -> option (list (string * tid))) ts ref r,
  (forall t ref r, f t ref = Some r -> g t ref = Some r) -> over f ts ref = Some r -> over g ts ref = Some r.
Proof.
  intros f g ts; induction ts as [|t ts IH]; simpl; intros ref r H Hf; [exact Hf|].
  destruct (f t ref) as [r1|] eqn:Ef; [|discriminate]. rewrite (H _ _ _ Ef). auto.
Qed.

Lemma fuel_mono : forall n m t ref r, collect n t ref = Some r -> n <= m -> collect m t ref = Some r.
Proof.
  induction n as [|n IH]; intros m t ref r H Hle; [discriminate|].
  destruct m as [|m]; [lia|]. destruct (collect_cases t ref) as [k [Hk Hc]].
  rewrite Hc in *. destruct Hk; auto.
  - apply IH; [exact H|lia].
  - eapply over_mono; [|exact H]. intros; apply IH; [assumption|lia].
  - eapply over_mono; [|exact H]. intros; apply IH; [assumption|lia].
Qed.

(* -------------------------------------------------------------- termination *)

Definition extends (ref r : list (string * tid)) : Prop :=
  forall k, lookup k ref <> None -> lookup k r <> None.

Definition free (ref : list (string * tid)) : nat :=
  length (filter (fun d => match lookup (n_name d) ref with Some _ => false | None => true end) E).

Lemma filter_le : forall A (p q : A -> bool) l, (forall a, q a = true -> p a = true) ->
  length (filter q l) <= length (filter p l).
Proof.
  intros A p q l H; induction l as [|a l IH]; simpl; [lia|].
  destruct (q a) eqn:Eq; [rewrite (H a Eq); simpl; lia|]. destruct (p a); simpl; lia.
Qed.

Lemma filter_lt : forall A (p q : A -> bool) l a, (forall a, q a = true -> p a = true) ->
  In a l -> p a = true -> q a = false -> length (filter q l) < length (filter p l).
Proof.
  intros A p q l a H; induction l as [|b l IH]; simpl; intros Hin Hp Hq; [destruct Hin|].
  destruct Hin as [->|Hin].
  - rewrite Hp, Hq. simpl. pose proof (filter_le A p q l H). lia.
  - specialize (IH Hin Hp Hq). destruct (q b) eqn:Eq; [rewrite (H b Eq); simpl; lia|]. destruct (p b); simpl; lia.
Qed.

Lemma free_extends : forall ref r, extends ref r -> free r <= free ref.
Proof.
  intros ref r H. apply filter_le. intros d Hd.
  destruct (lookup (n_name d) ref) as [v|] eqn:El; [|reflexivity].
  exfalso. destruct (lookup (n_name d) r) as [w|] eqn:Er; [discriminate|]. eapply H; eauto. congruence.
Qed.

Lemma register_extends : forall n d ref, extends ref (register n d ref).
Proof.
  intros n d ref k H. unfold register.
  assert (H1 : lookup k (insert (n_name d) n ref) <> None).
  { rewrite lookup_insert. destruct (eq_dec k (n_name d)); [discriminate|exact H]. }
  destruct (string_dec (n_pkg d) ""); [exact H1|].
  rewrite lookup_insert. destruct (eq_dec k _); [discriminate|exact H1].
Qed.

Lemma register_has : forall n d ref, lookup (n_name d) (register n d ref) <> None.
Proof.
  intros n d ref. unfold register.
  destruct (string_dec (n_pkg d) ""); [rewrite lookup_insert_eq; discriminate|].
  rewrite lookup_insert. destruct (eq_dec _ _); [discriminate|]. rewrite lookup_insert_eq; discriminate.
Qed.

Lemma free_register : forall n d ref, nth_error E n = Some d -> lookup (n_name d) ref = None ->
  free (register n d ref) < free ref.
Proof.
  intros n d ref Hn Hl. apply filter_lt with (a := d).
  - intros d' Hd'. destruct (lookup (n_name d') ref) as [v|] eqn:El; [|reflexivity].
    exfalso. pose proof (register_extends n d ref (n_name d')) as Hx. rewrite El in Hx.
    destruct (lookup (n_name d') (register n d ref)); [discriminate|]. apply Hx; [discriminate|reflexivity].
  - eapply nth_error_In; eauto.
  - rewrite Hl; reflexivity.
  - pose proof (register_has n d ref). destruct (lookup (n_name d) (register n d ref)); congruence.
Qed.

Lemma over_terminates : forall (P : list (string * tid) -> Prop) ts,
  (forall t ref, In t ts -> P ref -> exists fuel r, collect fuel t ref = Some r /\ extends ref r) ->
  (forall ref r, P ref -> extends ref r -> P r) ->
  forall ref, P ref -> exists fuel r, over (collect fuel) ts ref = Some r /\ extends ref r.
Proof.
  intros P ts; induction ts as [|t ts IH]; intros Ht Hp ref HP.
  - exists 0, ref. split; [reflexivity|]. intros k Hk; exact Hk.
  - destruct (Ht t ref) as [f1 [r1 [H1 X1]]]; [left; reflexivity|exact HP|].
    destruct (IH) with (ref := r1) as [f2 [r2 [H2 X2]]]; [intros; apply Ht; [right|]; assumption|exact Hp|eapply Hp; eauto|].
    exists (max f1 f2), r2. split.
    + simpl. rewrite (fuel_mono f1 (max f1 f2) _ _ _ H1) by lia.
      eapply over_mono; [|exact H2]. intros t' ref' r' Hr. eapply fuel_mono; [exact Hr|lia].
    + intros k Hk. apply X2, X1, Hk.
Qed.

Theorem collect_terminates : well_founded (fun u t => inside t u) ->
  forall t, exists fuel r, collect_from E impls fuel (Some t) = Some r.
Proof.
  intros Hwf.
  assert (G : forall k ref, free ref <= k -> forall t, exists fuel r, collect fuel t ref = Some r /\ extends ref r).
  { induction k as [k IHk] using lt_wf_ind. intros ref Hk t. revert ref Hk.
    induction (Hwf t) as [t _ IHt]. intros ref Hk.
    destruct (collect_cases t ref) as [kont [Hc Hu]]. destruct Hc.
    - exists 1, ref. rewrite Hu. split; [reflexivity|intros k' Hk'; exact Hk'].
    - destruct (IHt e H ref Hk) as [f [r [Hf Hx]]]. exists (S f), r. rewrite Hu. auto.
    - destruct (over_terminates (fun ref => free ref <= k) l) with (ref := ref) as [f [r [Hf Hx]]]; auto.
      + intros u ref' Hin Hr. apply IHt; [apply H; exact Hin|exact Hr].
      + intros ref1 r1 H1 X1. pose proof (free_extends _ _ X1). lia.
      + exists (S f), r. rewrite Hu. auto.
    - pose proof (free_register n d ref H1 H3) as Hlt.
      destruct (over_terminates (fun ref' => free ref' <= free (register n d ref)) (map ftype fs))
        with (ref := register n d ref) as [f [r [Hf Hx]]].
      + intros u ref' _ Hr. apply (IHk (free (register n d ref))); [lia|exact Hr].
      + intros ref1 r1 Hr1 X1. pose proof (free_extends _ _ X1). lia.
      + lia.
      + exists (S f), r. rewrite Hu. split; [exact Hf|].
        intros k' Hk'. apply Hx. apply register_extends; exact Hk'. }
  intros t. destruct (G (free []) [] (le_n _) t) as [f [r [H _]]]. exists f, r. exact H.
Qed.

(* Conversely, a traversal that ends has no infinite chain of non-field steps below it. *)
Lemma collect_acc : forall fuel t ref r, collect fuel t ref = Some r -> Acc (fun u t => inside t u) t.
Proof.
  induction fuel as [|fuel IH]; intros t ref r H; [discriminate|].
  destruct (collect_cases t ref) as [kont [Hc Hu]]. rewrite Hu in H. clear Hu. constructor. destruct Hc.
  - intros u Hu. exfalso; eapply H0; eauto.
  - intros u Hu. rewrite (H1 u Hu). eapply IH; eauto.
  - intros u Hu. apply H0 in Hu. clear H0 H1. revert ref r H Hu.
    induction l as [|v l IHl]; intros ref r H Hu; [destruct Hu|]. simpl in H.
    destruct (collect fuel v ref) as [r1|] eqn:E1; [|discriminate].
    destruct Hu as [->|Hu]; [eapply IH; eauto|eapply IHl; eauto].
  - intros u Hu. exfalso; eapply H1; eauto.
Qed.

Theorem collect_terminates_iff :
  (forall t, exists fuel r, collect_from E impls fuel (Some t) = Some r) <->
  well_founded (fun u t => inside t u).
Proof.
  split.
  - intros H t. destruct (H t) as [fuel [r Hr]]. eapply collect_acc; exact Hr.
  - intros H t. apply collect_terminates; exact H.
Qed.

(* ---------------------------------------------------------------- soundness *)

Lemma register_lookup : forall n d ref k m, nth_error E n = Some d ->
  lookup k (register n d ref) = Some m -> lookup k ref = Some m \/ (m = n /\ key_of n k).
Proof.
  intros n d ref k m Hn. unfold register.
  destruct (string_dec (n_pkg d) "") as [He|He]; rewrite ?lookup_insert.
  - destruct (eq_dec k (n_name d)) as [->|Hk]; intros H; [|auto].
    inversion H; subst. right; split; [reflexivity|]. exists d; auto.
  - destruct (eq_dec k _) as [->|Hk].
    + intros H; inversion H; subst. right; split; [reflexivity|]. exists d; auto.
    + destruct (eq_dec k (n_name d)) as [->|Hk']; intros H; [|auto].
      inversion H; subst. right; split; [reflexivity|]. exists d; auto.
Qed.

Lemma collect_sound_m : forall fuel t ref r, collect fuel t ref = Some r ->
  forall k n, lookup k r = Some n -> lookup k ref = Some n \/ (reaches t n /\ key_of n k).
Proof.
  induction fuel as [|fuel IH]; intros t ref r H; [discriminate|].
  assert (Hover : forall ts ref r, over (collect fuel) ts ref = Some r ->
    forall k n, lookup k r = Some n -> lookup k ref = Some n \/ (exists u, In u ts /\ reaches u n /\ key_of n k)).
  { induction ts as [|u ts IHts]; simpl; intros ref0 r0 H0 k n Hk.
    - inversion H0; subst; auto.
    - destruct (collect fuel u ref0) as [r1|] eqn:E1; [|discriminate].
      destruct (IHts _ _ H0 k n Hk) as [H1|[v [H1 H2]]].
      + destruct (IH _ _ _ E1 k n H1) as [H2|[H2 H3]]; [auto|]. right; exists u; auto.
      + right; exists v; auto. }
  destruct (collect_cases t ref) as [kont [Hc Hu]]. rewrite Hu in H. clear Hu. destruct Hc.
  - inversion H; subst; auto.
  - intros k n Hk. destruct (IH _ _ _ H k n Hk) as [H3|[H3 H4]]; [auto|]. right; split; [|exact H4].
    eapply re_inside; eauto.
  - intros k n Hk. destruct (Hover _ _ _ H k n Hk) as [H2|[u [H2 [H3 H4]]]]; [auto|]. right; split; [|exact H4].
    eapply re_inside; eauto. apply H0; exact H2.
  - intros k m Hk. destruct (Hover _ _ _ H k m Hk) as [H5|[u [H5 [H6 H7]]]].
    + destruct (register_lookup _ _ _ _ _ H2 H5) as [H6|[-> H6]]; [auto|]. right; split; [|exact H6].
      eapply re_here; eauto.
    + right; split; [|exact H7]. apply in_map_iff in H5. destruct H5 as [f [<- Hf]].
      eapply re_field; eauto.
Qed.

(* ------------------------------------------------------------- completeness *)

(* Struct types met before going through a struct field. *)
Inductive heads : gtype -> tid -> Prop :=
| hd_here : forall t n fs, is_struct t n fs -> heads t n
| hd_inside : forall t u n, inside t u -> heads u n -> heads t n.

Definition registered (ref : list (string * tid)) (n : tid) : Prop :=
  forall k, key_of n k -> lookup k ref = Some n.

Section Complete.
Variable R : tid -> Prop.       (* the types reachable from the target *)
Hypothesis R_inj : forall n m k, R n -> R m -> key_of n k -> key_of m k -> n = m.
Hypothesis R_named : forall n d, R n -> nth_error E n = Some d -> n_name d <> "".

Definition good (ref : list (string * tid)) : Prop :=
  forall k n, lookup k ref = Some n -> R n /\ key_of n k /\ registered ref n.

Lemma register_registered : forall n d ref, nth_error E n = Some d -> registered (register n d ref) n.
Proof.
  intros n d ref Hn k [d' [Hd' Hk]]. rewrite Hn in Hd'; inversion Hd'; subst d'. unfold register.
  destruct (string_dec (n_pkg d) "") as [He|He].
  - destruct Hk as [->|[Hc _]]; [|congruence]. apply lookup_insert_eq.
  - destruct Hk as [->|[_ ->]]; [|apply lookup_insert_eq].
    rewrite lookup_insert. destruct (eq_dec _ _); [reflexivity|]. apply lookup_insert_eq.
Qed.

Lemma register_keeps : forall n d ref m, nth_error E n = Some d -> R n -> R m ->
  registered ref m -> registered (register n d ref) m.
Proof.
  intros n d ref m Hn Rn Rm Hm k Hk.
  destruct (Nat.eq_dec m n) as [->|Hne]; [apply register_registered; assumption|].
  assert (Hnk : ~ key_of n k). { intros Hc. apply Hne. eapply R_inj; eauto. }
  unfold register.
  assert (k <> n_name d). { intros ->. apply Hnk. exists d; auto. }
  assert (H1 : lookup k (insert (n_name d) n ref) = Some m).
  { rewrite lookup_insert. destruct (eq_dec k (n_name d)); [congruence|]. apply Hm; exact Hk. }
  destruct (string_dec (n_pkg d) "") as [He|He]; [exact H1|].
  rewrite lookup_insert. destruct (eq_dec k _) as [->|_]; [|exact H1].
  exfalso. apply Hnk. exists d; auto.
Qed.

Lemma register_good : forall n d ref, nth_error E n = Some d -> R n -> good ref -> good (register n d ref).
Proof.
  intros n d ref Hn Rn Hg k m Hk.
  destruct (register_lookup _ _ _ _ _ Hn Hk) as [H|[-> H]].
  - destruct (Hg k m H) as [Rm [Hkm Hreg]]. split; [exact Rm|]. split; [exact Hkm|].
    apply register_keeps; assumption.
  - split; [exact Rn|]. split; [exact H|]. apply register_registered; assumption.
Qed.

Definition closed_new (ref r : list (string * tid)) : Prop :=
  forall n fs f m, registered r n -> ~ registered ref n -> R n -> under E (TNamed n) = TStruct fs -> In f fs ->
    heads (ftype f) m -> registered r m.

Definition outcome (ts : list gtype) (ref r : list (string * tid)) : Prop :=
  good r /\ (forall n, R n -> registered ref n -> registered r n) /\
  (forall t n, In t ts -> heads t n -> registered r n) /\ closed_new ref r.

Lemma heads_reaches : forall t n, heads t n -> reaches t n.
Proof. intros t n H; induction H; [eapply re_here; eauto|eapply re_inside; eauto]. Qed.

Lemma registered_dec : forall ref n, R n -> good ref -> registered ref n \/ ~ registered ref n.
Proof.
  intros ref n Rn Hg. destruct (nth_error E n) as [d|] eqn:En.
  - destruct (lookup (n_name d) ref) as [m|] eqn:El.
    + destruct (Hg _ _ El) as [Rm [Hk Hr]].
      assert (m = n) by (eapply R_inj; eauto; exists d; auto). subst; auto.
    + right. intros H. rewrite H in El; [discriminate|]. exists d; auto.
  - left. intros k [d [Hd _]]. congruence.
Qed.

Lemma collect_complete : forall fuel t ref r, (forall n, reaches t n -> R n) -> good ref ->
  collect fuel t ref = Some r -> outcome [t] ref r.
Proof.
  induction fuel as [|fuel IH]; intros t ref r Ht Hg H; [discriminate|].
  assert (Hover : forall ts ref r, (forall t n, In t ts -> reaches t n -> R n) -> good ref ->
    over (collect fuel) ts ref = Some r -> outcome ts ref r).
  { induction ts as [|u ts IHts]; simpl; intros ref0 r0 Hts Hg0 H0.
    - inversion H0; subst. split; [exact Hg0|]. split; [auto|]. split; [intros t0 n []|].
      intros n fs f m H1 H2; contradiction.
    - destruct (collect fuel u ref0) as [r1|] eqn:E1; [|discriminate].
      destruct (IH u ref0 r1) as [G1 [K1 [T1 C1]]]; [intros; eapply Hts; eauto|exact Hg0|exact E1|].
      destruct (IHts r1 r0) as [G2 [K2 [T2 C2]]]; [intros; eapply Hts; eauto|exact G1|exact H0|].
      split; [exact G2|]. split; [auto|]. split.
      + intros t0 n [->|Hin] Hh.
        * apply K2; [apply (Hts t0); [left; reflexivity|apply heads_reaches; exact Hh]|].
          eapply T1; [left; reflexivity|exact Hh].
        * eapply T2; eauto.
      + intros n fs f m H1 H2 Rn H3 H4 H5.
        destruct (registered_dec r1 n Rn G1) as [Hd|Hd].
        * assert (Hm : registered r1 m) by (eapply C1; eauto).
          destruct (nth_error E m) as [dm|] eqn:Em.
          2:{ intros k [dd [Hc _]]; congruence. }
          apply K2; [|exact Hm].
          assert (El : lookup (n_name dm) r1 = Some m) by (apply Hm; exists dm; auto).
          apply (G1 _ _ El).
        * eapply C2; eauto. }
  destruct (collect_cases t ref) as [kont [Hc Hu]]. rewrite Hu in H. clear Hu. destruct Hc.
  - inversion H; subst. split; [exact Hg|]. split; [auto|]. split.
    + intros t0 n [<-|[]] Hh. inversion Hh as [t1 n1 fs Hs|t1 u n1 Hi Hh']; subst.
      * destruct (H1 n fs Hs) as [d [Hd [He|[v Hv]]]].
        -- exfalso. apply (R_named n d); auto. apply Ht. eapply re_here; eauto.
        -- destruct (Hg _ _ Hv) as [Rv [Hk Hr]].
           assert (v = n). { eapply R_inj; eauto; [apply Ht; eapply re_here; eauto|exists d; auto]. }
           subst; exact Hr.
      * exfalso; eapply H0; eauto.
    + intros n fs f m Hr1 Hr2; contradiction.
  - destruct (IH e ref r) as [G1 [K1 [T1 C1]]]; [intros n Hn; apply Ht; eapply re_inside; eauto|exact Hg|exact H|].
    split; [exact G1|]. split; [exact K1|]. split; [|exact C1].
    intros t0 n [<-|[]] Hh. inversion Hh as [t1 n1 fs Hs|t1 u n1 Hi Hh']; subst.
    + exfalso; eapply H2; eauto.
    + rewrite (H1 _ Hi) in Hh'. eapply T1; [left; reflexivity|exact Hh'].
  - destruct (Hover l ref r) as [G1 [K1 [T1 C1]]].
    { intros u n Hin Hn; apply Ht. eapply re_inside; eauto. apply H0; exact Hin. }
    { exact Hg. } { exact H. }
    split; [exact G1|]. split; [exact K1|]. split; [|exact C1].
    intros t0 n [<-|[]] Hh. inversion Hh as [t1 n1 fs Hs|t1 u n1 Hi Hh']; subst.
    + exfalso; eapply H1; eauto.
    + eapply T1; [apply H0; exact Hi|exact Hh'].
  - assert (Rn : R n) by (apply Ht; eapply re_here; eauto).
    destruct (Hover (map ftype fs) (register n d ref) r) as [G1 [K1 [T1 C1]]].
    { intros u m Hin Hm. apply Ht. apply in_map_iff in Hin. destruct Hin as [f [<- Hf]]. eapply re_field; eauto. }
    { apply register_good; assumption. } { exact H. }
    assert (Hn : registered r n).
    { apply K1; [exact Rn|]. apply register_registered; assumption. }
    split; [exact G1|]. split.
    { intros m Rm Hm. apply K1; [exact Rm|]. apply register_keeps; assumption. }
    split.
    + intros t0 m [<-|[]] Hh. inversion Hh as [t1 n1 fs1 Hs|t1 u n1 Hi Hh']; subst.
      * destruct Hs as [Hs _]. destruct H0 as [Hs' _]. apply strip_fun in Hs. apply strip_fun in Hs'.
        rewrite <- Hs' in Hs. inversion Hs; subst. exact Hn.
      * exfalso; eapply H1; eauto.
    + intros m fs' f x Hr1 Hr2 Rm Hus Hin Hh.
      destruct (Nat.eq_dec m n) as [->|Hne].
      * destruct H0 as [_ Hun]. rewrite Hun in Hus; inversion Hus; subst fs'.
        eapply T1; [apply (List.in_map ftype); exact Hin|exact Hh].
      * eapply (C1 m fs' f x); eauto. intros Hc. apply Hr2. intros k Hk.
        assert (Hl : lookup k (register n d ref) = Some m) by (apply Hc; exact Hk).
        destruct (register_lookup _ _ _ _ _ H2 Hl) as [Hl'|[-> _]]; [exact Hl'|congruence].
Qed.

Lemma closure : forall r, closed_new [] r -> good r ->
  forall t n, reaches t n -> (forall m, reaches t m -> R m) ->
  (forall m, heads t m -> registered r m) -> registered r n.
Proof.
  intros r Hc Hg t n H; induction H as [t n fs Hs|t u n Hi Hr IH|t n fs f m Hs Hin Hr IH]; intros HR Hh.
  - apply Hh. eapply hd_here; eauto.
  - apply IH.
    + intros m Hm. apply HR. eapply re_inside; eauto.
    + intros m Hm. apply Hh. eapply hd_inside; eauto.
  - apply IH.
    + intros x Hx. apply HR. eapply re_field; eauto.
    + intros x Hx. assert (Hrn : registered r n) by (apply Hh; eapply hd_here; eauto).
      assert (Rn : R n) by (apply HR; eapply re_here; eauto).
      eapply (Hc n fs f x); eauto; [|apply Hs].
      intros Hemp. destruct Hs as [_ Hu]. unfold under in Hu.
      destruct (nth_error E n) as [d|] eqn:En; [|discriminate].
      assert (Hk : key_of n (n_name d)) by (exists d; auto). apply Hemp in Hk. discriminate.
Qed.

End Complete.

Theorem collect_exact_m : forall t fuel r,
  (forall n m d d', reaches t n -> reaches t m -> nth_error E n = Some d -> nth_error E m = Some d' ->
     n_name d = n_name d' -> n = m) ->
  (forall n d, reaches t n -> nth_error E n = Some d -> plain_name (n_name d)) ->
  collect_from E impls fuel (Some t) = Some r ->
  forall k n, lookup k r = Some n <-> reaches t n /\ key_of n k.
Proof.
  intros t fuel r Hinj Hplain H k n. split.
  - intros Hk. destruct (collect_sound_m _ _ _ _ H k n Hk) as [Hc|Hc]; [discriminate|exact Hc].
  - intros [Hr Hk].
    assert (HI : forall n m k, reaches t n -> reaches t m -> key_of n k -> key_of m k -> n = m).
    { intros n1 m1 k1 R1 R2 [d1 [Hd1 K1]] [d2 [Hd2 K2]].
      destruct (Hplain _ _ R1 Hd1) as [_ P1]. destruct (Hplain _ _ R2 Hd2) as [_ P2].
      apply (Hinj n1 m1 d1 d2); auto.
      destruct K1 as [->|[_ ->]]; destruct K2 as [K2|[_ K2]].
      - exact K2.
      - exfalso; apply P1. rewrite K2. apply qualified_dot.
      - exfalso; apply P2. rewrite <- K2. apply qualified_dot.
      - eapply qualified_inj; eauto. }
    destruct (collect_complete (reaches t) HI) with (fuel := fuel) (t := t) (ref := @nil (string * tid)) (r := r)
      as [G [_ [T C]]].
    { intros n1 d1 R1 D1. apply (Hplain _ _ R1 D1). }
    { auto. } { intros k1 n1 Hc; discriminate. } { exact H. }
    eapply (closure (reaches t)); eauto.
    intros m Hm. apply (T t); [left; reflexivity|exact Hm].
Qed.

Lemma key_m_iff : forall n k, key_m n k <-> CollectSpec.key_of E n k.
Proof.
  intros n k; split; intros [d [Hd H]]; exists d; split; try exact Hd; destruct H as [H|[Hp H]]; auto; right; split; try exact Hp.
  - exists (last_part (n_pkg d)). split; [apply last_part_spec|exact H].
  - destruct H as [q [Hq ->]]. rewrite (last_element_unique _ _ _ Hq (last_part_spec _)). reflexivity.
Qed.

Lemma collect_sound : forall fuel t ref r, collect fuel t ref = Some r ->
  forall k n, lookup k r = Some n -> lookup k ref = Some n \/ (reaches t n /\ CollectSpec.key_of E n k).
Proof. intros fuel t ref r H k n Hk. rewrite <- key_m_iff. eapply collect_sound_m; eassumption. Qed.

Theorem collect_exact : forall t fuel r,
  (forall n m d d', reaches t n -> reaches t m -> nth_error E n = Some d -> nth_error E m = Some d' ->
     n_name d = n_name d' -> n = m) ->
  (forall n d, reaches t n -> nth_error E n = Some d -> plain_name (n_name d)) ->
  collect_from E impls fuel (Some t) = Some r ->
  forall k n, lookup k r = Some n <-> reaches t n /\ CollectSpec.key_of E n k.
Proof. intros t fuel r H1 H2 H k n. rewrite <- key_m_iff. eapply collect_exact_m; eassumption. Qed.

End Proofs.
