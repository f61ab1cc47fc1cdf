(* What decoding leaves alone, and what a failed decoding leaves behind. *)

From Verif Require Import Base GoType SpecModel CollectModel CollectSpec CollectProofs DetModel DetSpec DetProofs DetSound.

Section Frame.
Variable E : env.

Lemma embedded_fun : forall f gs gs', embedded E f gs -> embedded E f gs' -> gs = gs'.
Proof. intros f gs gs' (_ & _ & _ & H) (_ & _ & _ & H'). congruence. Qed.

Lemma flat_fun : forall fs l, flat E fs l -> forall l', flat E fs l' -> l = l'.
Proof.
  intros fs l H; induction H as [|f fs l Hh H IH|f gs fs l1 l2 He H1 IH1 H2 IH2|f fs l Hh Hne H IH]; intros l' H'.
  - inversion H'; reflexivity.
  - inversion H' as [|? ? ? Hh' Hf|? gs ? l1 l2 He' Hf1 Hf2|? ? ? Hh' Hne' Hf]; subst.
    + auto.
    + destruct He' as [He' _]; contradiction.
    + contradiction.
  - inversion H' as [|? ? ? Hh' Hf|? gs' ? l1' l2' He' Hf1 Hf2|? ? ? Hh' Hne' Hf]; subst.
    + destruct He as [He _]; contradiction.
    + rewrite (embedded_fun _ _ _ He He') in *. rewrite (IH1 _ Hf1), (IH2 _ Hf2). reflexivity.
    + exfalso; eapply Hne'; exact He.
  - inversion H' as [|? ? ? Hh' Hf|? gs ? l1 l2 He' Hf1 Hf2|? ? ? Hh' Hne' Hf]; subst.
    + contradiction.
    + exfalso; eapply Hne; exact He'.
    + f_equal; auto.
Qed.

(* A decoded field that is an immediate field is not hidden. *)
Lemma flat_here : forall fs l, flat E fs l -> forall n f, In ([n], f) l -> n = fname f /\ ~ hidden f /\ In f fs.
Proof.
  intros fs l H; induction H as [|f fs l Hh H IH|f gs fs l1 l2 He H1 IH1 H2 IH2|f fs l Hh Hne H IH]; intros n g Hin.
  - contradiction.
  - destruct (IH _ _ Hin) as (? & ? & ?). repeat split; auto; right; assumption.
  - apply in_app_or in Hin as [Hin|Hin].
    + apply in_map_iff in Hin as ([p' g'] & Heq & Hin). simpl in Heq. inversion Heq; subst.
      destruct (flat_path E _ _ H1 _ _ Hin) as [Hp _]. apply path_nonempty in Hp. simpl in Hp; lia.
    + destruct (IH2 _ _ Hin) as (? & ? & ?). repeat split; auto; right; assumption.
  - destruct Hin as [Hin|Hin].
    + inversion Hin; subst. repeat split; auto. left; reflexivity.
    + destruct (IH _ _ Hin) as (? & ? & ?). repeat split; auto; right; assumption.
Qed.

Variable depth : nat.
Variable std : gtype -> gval -> option json -> gval * result unit.
Variable zero : gtype -> gval.
Variable assignable : gtype -> gtype -> bool.
Variable perm : list (string * json) -> list (string * json).

Lemma field_step_frame : forall fs ref specs x raw cur v r,
  field_step E depth zero assignable [([], fs)] ref specs x raw cur = (v, r) ->
  forall q, (forall ft, ~ selects E fs (nf_name x) q ft) -> fields_of v q = fields_of cur q.
Proof.
  intros fs ref specs x raw cur v r H q Hq. unfold field_step in H.
  destruct (field_by_name E depth (nf_name x) [([], fs)]) as [[q' ft]|] eqn:Hfb; cbn [option_map snd] in H.
  - destruct (field_result _ _ _ _ _ _ _ _) as [[vt w]|e|p]; cbn [bindr] in H; [|inversion H; reflexivity|inversion H; reflexivity].
    unfold set_field in H. destruct (assignable _ _); inversion H; subst; [|reflexivity].
    apply fields_upd_ne. intros ->. apply field_by_name_selects in Hfb. eapply Hq; exact Hfb.
  - destruct (field_result _ _ _ _ _ _ _ _) as [[vt w]|e|p]; cbn in H; inversion H; reflexivity.
Qed.

Lemma fields_step_frame : forall fs ref specs xs cur v r,
  fields_step E depth zero assignable [([], fs)] ref specs xs cur = (v, r) ->
  forall q, (forall x raw ft, In (x, raw) xs -> ~ selects E fs (nf_name x) q ft) -> fields_of v q = fields_of cur q.
Proof.
  intros fs ref specs xs; induction xs as [|[x raw] xs IH]; intros cur v r H q Hq; [inversion H; reflexivity|].
  cbn [fields_step] in H.
  destruct (field_step E depth zero assignable [([], fs)] ref specs x raw cur) as [cur' r'] eqn:Hst.
  pose proof (field_step_frame _ _ _ _ _ _ _ _ Hst q (fun ft => Hq x raw ft (or_introl eq_refl))) as H1.
  destruct r' as [[]|e|p].
  - rewrite <- H1. eapply IH; [exact H|]. intros; eapply Hq; right; eassumption.
  - inversion H; subst; exact H1.
  - inversion H; subst; exact H1.
Qed.

Notation ju := (json_unmarshal E depth std zero assignable perm).

Theorem unmarshal_frame : forall c om ref t cur dat v r fs l, om <> [] ->
  ju (SStruct c (Some om)) ref t cur dat = (v, r) -> under E t = TStruct fs -> flat E fs l ->
  forall q, (forall p f ft, In (p, f) l -> ~ selects E fs (fname f) q ft) -> fields_of v q = fields_of cur q.
Proof.
  intros c om ref t cur dat v r fs l Hne H Hu Hl q Hq. destruct om as [|kv om]; [congruence|].
  cbn [json_unmarshal] in H. unfold with_spec in H.
  destruct (collect E (implementations ref) depth (TPtr t) []) as [auto|]; [|inversion H; reflexivity].
  rewrite Hu in H.
  destruct (loop_fields E depth (kv :: om) [] fs) as [nfs|] eqn:Hlf; [|inversion H; reflexivity].
  destruct (has_dup (map nf_name nfs)); [inversion H; reflexivity|].
  destruct (raw_struct E std zero perm (kv :: om) nfs dat) as [raws|e|p]; try (inversion H; reflexivity).
  eapply fields_step_frame; [exact H|]. intros x raw ft Hx.
  apply in_combine_l in Hx. apply loop_fields_flat in Hlf as (l' & Hl' & ->).
  rewrite <- (flat_fun _ _ Hl _ Hl') in Hx. apply in_map_iff in Hx as ([p f] & <- & Hin).
  eapply Hq; exact Hin.
Qed.

(* A failing loop has completed some fields and not touched the others. *)
Lemma fields_step_fail : forall fs ref specs xs cur v r, r <> Ok tt ->
  fields_step E depth zero assignable [([], fs)] ref specs xs cur = (v, r) ->
  exists xs1 xs2, xs = xs1 ++ xs2 /\ fields_step E depth zero assignable [([], fs)] ref specs xs1 cur = (v, Ok tt).
Proof.
  intros fs ref specs xs; induction xs as [|[x raw] xs IH]; intros cur v r Hr H.
  - inversion H; subst; congruence.
  - cbn [fields_step] in H.
    destruct (field_step E depth zero assignable [([], fs)] ref specs x raw cur) as [cur' r'] eqn:Hst.
    assert (Hsame : forall e, r' <> Ok tt -> (cur', r') = (v, e) -> v = cur).
    { intros e Hr' Heq. inversion Heq; subst. unfold field_step in Hst.
      match type of Hst with match ?b with _ => _ end = _ => destruct b end; inversion Hst; subst; congruence. }
    destruct r' as [[]|e|p].
    + apply IH in H as (xs1 & xs2 & -> & H); [|exact Hr]. exists ((x, raw) :: xs1), xs2. split; [reflexivity|].
      cbn [fields_step]. rewrite Hst. exact H.
    + exists [], ((x, raw) :: xs). split; [reflexivity|]. rewrite (Hsame r); [reflexivity|discriminate|exact H].
    + exists [], ((x, raw) :: xs). split; [reflexivity|]. rewrite (Hsame r); [reflexivity|discriminate|exact H].
Qed.

Hypothesis Hperm : forall m, Permutation (perm m) m.

Theorem unmarshal_fail : forall c om ref t cur dat v r fs l, om <> [] -> NoDup (keys ref) ->
  ju (SStruct c (Some om)) ref t cur dat = (v, r) -> under E t = TStruct fs -> flat E fs l -> r <> Ok tt ->
  v = cur \/
  (exists ms ref', members dat ms /\ merged E ref t ref' /\
   forall q, fields_of v q = fields_of cur q \/
     exists p f ft, In (p, f) l /\ selects E fs (fname f) q ft /\
       field_value E std zero (decoded E std zero) ref' (lookup (fname f) om) f ft (jget E om (map snd l) f ms) (fields_of v q)).
Proof.
  intros c om ref t cur dat v r fs l Hne Hnd H Hu Hfl Hr. destruct om as [|kv om]; [congruence|].
  cbn [json_unmarshal] in H. remember (kv :: om) as om' eqn:Hom.
  fold (nest_fields E depth std zero assignable perm om') in H. clear Hom kv om. rename om' into om.
  unfold with_spec in H. destruct (collect E (implementations ref) depth (TPtr t) []) as [auto|] eqn:Hc;
    [|inversion H; auto].
  destruct (merge_spec E depth ref t auto Hnd Hc) as [Hm Hmn]. rewrite Hu in H.
  destruct (loop_fields E depth om [] fs) as [nfs|] eqn:Hl; [|inversion H; auto].
  destruct (has_dup (map nf_name nfs)) eqn:Hdup; [inversion H; auto|].
  destruct (raw_struct E std zero perm om nfs dat) as [raws|e|p] eqn:Hrs; try (inversion H; auto; fail).
  right. apply loop_fields_flat in Hl as (l' & Hflat & Hnfs). simpl in Hnfs.
  rewrite <- (flat_fun _ _ Hfl _ Hflat) in *. clear l' Hflat.
  apply raw_struct_ok in Hrs as (ms & Hms & Hraws).
  apply has_dup_false in Hdup.
  assert (Hnames : map (fun xr => nf_name (fst xr)) (combine nfs raws) = map nf_name nfs).
  { rewrite <- (combine_fst _ _ _ _ _ Hraws) at 2. rewrite map_map. reflexivity. }
  apply fields_step_fail in H as (xs1 & xs2 & Hxs & H); [|exact Hr].
  rewrite <- Hnames, Hxs, map_app in Hdup. apply NoDup_app_l in Hdup.
  destruct (fields_step_ok _ _ _ _ _ _ _ _ _ _ H Hdup) as [H1 H2].
  destruct (combine_in _ _ _ _ _ Hraws) as [_ Hc2].
  exists ms, (merge auto ref). split; [exact Hms|]. split; [exact Hm|]. intros q.
  assert (Hdec : (exists x raw ft, In (x, raw) xs1 /\ field_by_name E depth (nf_name x) [([], fs)] = Some (q, ft)) \/
                 forall x raw ft, In (x, raw) xs1 -> field_by_name E depth (nf_name x) [([], fs)] <> Some (q, ft)).
  { clear. induction xs1 as [|[x raw] xs1 IH]; [right; intros x raw ft []|].
    destruct IH as [(x' & raw' & ft' & Hin & Hx)|Hno]; [left; exists x', raw', ft'; split; [right; exact Hin|exact Hx]|].
    destruct (field_by_name E depth (nf_name x) [([], fs)]) as [[q' ft]|] eqn:Hx.
    - destruct (list_eq_dec string_dec q' q) as [->|Hq].
      + left; exists x, raw, ft; split; [left; reflexivity|exact Hx].
      + right; intros x' raw' ft' [Heq|Hin]; [inversion Heq; subst; congruence|eauto].
    - right; intros x' raw' ft' [Heq|Hin]; [inversion Heq; subst; congruence|eauto]. }
  destruct Hdec as [(x & raw & ft & Hin & Hx)|Hno]; [right|left; apply H2; exact Hno].
  destruct (H1 _ _ Hin) as (q' & ft' & vt & w & Hq & Hfr & Hw). rewrite Hx in Hq. inversion Hq; subst q' ft'.
  assert (Hin' : In (x, raw) (combine nfs raws)) by (rewrite Hxs; apply in_or_app; left; exact Hin).
  apply Hc2 in Hin' as [Hx' Hrf]. rewrite Hnfs in Hx'. apply in_map_iff in Hx' as ([p f] & <- & Hpf).
  exists p, f, ft. split; [exact Hpf|]. split; [eapply field_by_name_selects; exact Hx|]. rewrite Hw.
  assert (Hfields : map nf_field nfs = map snd l) by (rewrite Hnfs, map_map; reflexivity). rewrite <- Hfields.
  refine (field_result_sound E depth std zero assignable perm Hperm om (merge auto ref) (NF f p (kind_of E om f)) _ raw ft vt w _ Hmn _ _ Hrf Hfr).
  - intros k sv s Hk Hsv. apply unmarshal_sound. exact Hperm.
  - eapply merged_no_impls; exact Hm.
  - reflexivity.
Qed.

End Frame.

(* ------------------------------------------------------------ which text a field gets *)

Section Text.
Variable E : env.

Lemma in_raw_name : forall om f, fname (in_raw om f) = fname f.
Proof. intros om f. unfold in_raw. destruct (lookup (fname f) om); reflexivity. Qed.
Lemma in_raw_json : forall om f, json_name (in_raw om f) = json_name f.
Proof. intros om f. unfold in_raw, json_name. destruct (lookup (fname f) om); reflexivity. Qed.

Lemma filter_one : forall ns n, NoDup (map jn_name ns) -> In n ns ->
  filter (fun g => String.eqb (jn_name g) (jn_name n)) ns = [n].
Proof.
  intros ns n; induction ns as [|g ns IH]; intros Hnd Hin; [contradiction|].
  inversion Hnd as [|? ? Hnot Hnd']; subst. simpl. destruct (String.eqb (jn_name g) (jn_name n)) eqn:Eq.
  - apply String.eqb_eq in Eq. destruct Hin as [->|Hin].
    + f_equal. clear -Hnot. induction ns as [|g ns IH]; [reflexivity|]. simpl.
      destruct (String.eqb (jn_name g) (jn_name n)) eqn:E'.
      * apply String.eqb_eq in E'. exfalso; apply Hnot. left; exact E'.
      * apply IH. intros H; apply Hnot; right; exact H.
    + exfalso; apply Hnot. rewrite Eq. apply List.in_map; exact Hin.
  - destruct Hin as [->|Hin]; [rewrite String.eqb_refl in Eq; discriminate|]. auto.
Qed.

Lemma dominant_all : forall ns, NoDup (map jn_name ns) -> filter (dominant ns) ns = ns.
Proof.
  intros ns Hnd.
  assert (H : forall l, incl l ns -> filter (dominant ns) l = l).
  { induction l as [|n l IH]; intros Hi; [reflexivity|]. simpl.
    unfold dominant at 1. rewrite filter_one by (auto; apply Hi; left; reflexivity).
    cbn [forallb filter]. rewrite Nat.leb_refl, Nat.eqb_refl. cbn [andb].
    f_equal. apply IH. intros x Hx. apply Hi; right; exact Hx. }
  apply H, incl_refl.
Qed.

Lemma find_exact : forall ns n, NoDup (map jn_name ns) -> In n ns ->
  find (fun g => String.eqb (jn_name g) (jn_name n)) ns = Some n.
Proof.
  intros ns n Hnd Hin. pose proof (filter_one ns n Hnd Hin) as Hf. clear Hnd Hin.
  induction ns as [|g ns IH]; [discriminate|]. simpl in *. destruct (String.eqb (jn_name g) (jn_name n)); [congruence|auto].
Qed.

(* With distinct names, a key that is no variant of one of them stands for the name it is. *)
Lemma owned_iff : forall fs f k j, NoDup (map jn_name (json_names E fs)) ->
  (forall n, In n (json_names E fs) -> fold_key k = fold_key (jn_name n) -> k = jn_name n) ->
  owned E fs f (k, j) = true <-> exists n, In n (json_names E fs) /\ jn_name n = k /\ jn_owner n = fname f.
Proof.
  intros fs f k j Hnd Hcase. unfold owned, field_for. rewrite dominant_all by exact Hnd. cbn [fst]. split.
  - destruct (find (fun n => String.eqb (jn_name n) k) (json_names E fs)) as [n|] eqn:F.
    + intros H. apply find_some in F as [I Q]. apply String.eqb_eq in Q, H. exists n. auto.
    + destruct (find _ (json_names E fs)) as [n|] eqn:F' in |- *; [|discriminate].
      intros H. apply find_some in F' as [I Q]. apply String.eqb_eq in Q, H. exists n.
      split; [exact I|]. split; [symmetry; apply Hcase; congruence|exact H].
  - intros (n & I & <- & O). rewrite find_exact by assumption. apply String.eqb_eq. exact O.
Qed.

Lemma last_entry : forall (P : string * json -> bool) (m : list (string * json)) k j,
  (forall kj, In kj m -> P kj = true <-> fst kj = k) ->
  match filter P m with [] => None | kj :: l => Some (snd (last l kj)) end = Some j <-> entry m k j.
Proof.
  intros P m k j. induction m as [|[k0 j0] m IH]; intros HP.
  - simpl. split; [discriminate|]. intros (m1 & m2 & Hm & _). destruct m1; discriminate.
  - rewrite entry_cons. assert (IH' := IH (fun kj I => HP kj (or_intror I))). clear IH.
    assert (H0 := HP (k0, j0) (or_introl eq_refl)). cbn [fst] in H0.
    assert (Hno : filter P m = [] <-> ~ In k (keys m)).
    { split.
      - intros F I. unfold keys in I. apply in_map_iff in I as (kj & <- & I).
        assert (In kj (filter P m)) by (apply filter_In; split; [exact I|]; apply HP; [right; exact I|reflexivity]).
        rewrite F in H. destruct H.
      - intros N. destruct (filter P m) as [|kj l] eqn:F; [reflexivity|]. exfalso. apply N.
        assert (I : In kj (filter P m)) by (rewrite F; left; reflexivity). apply filter_In in I as [I Q].
        apply HP in Q; [|right; exact I]. rewrite <- Q. unfold keys. apply List.in_map. exact I. }
    cbn [filter]. destruct (P (k0, j0)) eqn:Q.
    + assert (K : k0 = k) by (apply H0; reflexivity). subst k0.
      destruct (filter P m) as [|kj l] eqn:F.
      * cbn [last snd]. rewrite <- IH'. split.
        -- intros H. right. split; [reflexivity|]. split; [congruence|]. apply Hno. reflexivity.
        -- intros [H|(_ & -> & _)]; [discriminate|reflexivity].
      * rewrite <- IH'. assert (L : forall d, last (kj :: l) d = last l kj).
        { clear. intros d. revert kj. induction l as [|x l IH]; intros kj; [reflexivity|]. cbn [last] in *. destruct l; [reflexivity|exact (IH kj)]. }
        rewrite L. split; [intros H; left; exact H|]. intros [H|(_ & _ & N)]; [exact H|].
        apply Hno in N. discriminate.
    + rewrite IH'. split; [intros H; left; exact H|]. intros [H|(K & _)]; [exact H|].
      symmetry in K. apply H0 in K. discriminate.
Qed.

Lemma names_plain : forall fs, (forall g, In g fs -> promotes E g = None) ->
  json_names E fs = map (fun g => JName (fname g) 0 (json_name g) (tagged g)) fs.
Proof.
  induction fs as [|g fs IH]; intros H; [reflexivity|]. unfold json_names in *. cbn [flat_map map].
  rewrite (H g (or_introl eq_refl)), IH; [reflexivity|]. intros h I. apply H. right. exact I.
Qed.

Lemma inner_plain : forall n o d gs, (forall g, In g gs -> promotes E g = None) ->
  inner_names E (S n) o d gs = map (fun g => JName o d (json_name g) (tagged g)) (filter in_json gs).
Proof.
  intros n o d gs. cbn [inner_names]. induction gs as [|g gs IH]; intros H; [reflexivity|]. cbn [flat_map filter].
  rewrite (H g (or_introl eq_refl)), IH by (intros h I; apply H; right; exact I). destruct (in_json g); reflexivity.
Qed.

Lemma promotes_iff : forall om f gs, promotes E (in_raw om f) = Some gs <-> inlined E om f gs.
Proof.
  intros om f gs. unfold inlined, in_raw, promotes, tagged.
  destruct (lookup (fname f) om) eqn:L; cbn [fanon ftag ftype]; [split; [discriminate|intros (_ & _ & ? & _); discriminate]|].
  destruct (fanon f); cbn [andb]; [|split; [discriminate|intros (? & _); discriminate]].
  rewrite negb_involutive.
  assert (T : String.eqb (upto_comma (ftag f)) "" = true <-> ftag f = "" \/ (exists rest, ftag f = ("," +++ rest))).
  { rewrite String.eqb_eq. destruct (ftag f) as [|c r]; [split; auto|]. cbn [upto_comma]. destruct (Ascii.eqb c ",") eqn:C.
    - apply Ascii.eqb_eq in C. subst c. split; [|reflexivity]. intros _. right. exists r. reflexivity.
    - split; [discriminate|]. intros [H|[x H]]; [discriminate|]. cbn in H. injection H as -> _. discriminate. }
  destruct (String.eqb (upto_comma (ftag f)) "").
  - split.
    + intros H. split; [reflexivity|]. split; [apply T; reflexivity|]. split; [reflexivity|].
      destruct (under E (ftype f)) as [n|u|u|u|k u|fs|ms|b] eqn:U; try discriminate; [right; exists u; split; [reflexivity|]|left; congruence].
      destruct (under E u); congruence.
    + intros (_ & _ & _ & [U|(u & U & U')]); rewrite U; [reflexivity|]. rewrite U'. reflexivity.
  - split; [discriminate|]. intros (_ & H & _). apply T in H. discriminate.
Qed.
Lemma promotes_none : forall om f, (forall gs, ~ inlined E om f gs) -> promotes E (in_raw om f) = None.
Proof.
  intros om f H. destruct (promotes E (in_raw om f)) as [gs|] eqn:P; [|reflexivity].
  apply promotes_iff in P. destruct (H _ P).
Qed.
Lemma promotes_none0 : forall f, (forall gs, ~ inlined E [] f gs) -> promotes E f = None.
Proof. intros f H. exact (promotes_none [] f H). Qed.

Lemma in_json_iff : forall f, in_json f = true <-> starts_upper (fname f) /\ ftag f <> "-".
Proof.
  intros f. unfold in_json, is_exported, starts_upper. rewrite andb_true_iff, negb_true_iff, String.eqb_neq.
  split; intros [A B]; (split; [|exact B]).
  - destruct (fname f) as [|c r]; [discriminate|]. exists c, r. split; [reflexivity|]. apply andb_true_iff in A. lia.
  - destruct A as (c & r & -> & A). apply andb_true_iff. lia.
Qed.

Lemma jget_exact : forall om fs f m, (forall g gs, In g fs -> ~ inlined E om g gs) ->
  NoDup (map json_name fs) -> NoDup (map fname fs) -> In f fs ->
  (forall k g, In k (keys m) -> In g fs -> fold_key k = fold_key (json_name g) -> k = json_name g) ->
  forall j, jget E om fs f m = Some j <-> entry m (json_name f) j.
Proof.
  intros om fs f m Hp Hj Hn Hin Hcase j. unfold jget.
  rewrite (promotes_none om f) by (intros gs; apply Hp; exact Hin).
  assert (Hns : json_names E (map (in_raw om) fs) = map (fun g => JName (fname g) 0 (json_name g) (tagged g)) (map (in_raw om) fs)).
  { apply names_plain. intros g I. apply in_map_iff in I as (h & <- & I). apply promotes_none. intros gs. apply Hp. exact I. }
  assert (Hnames : map jn_name (json_names E (map (in_raw om) fs)) = map json_name fs).
  { rewrite Hns, !map_map. cbn [jn_name]. apply map_ext. intros g. apply in_raw_json. }
  apply (last_entry (owned E (map (in_raw om) fs) f) m (json_name f) j).
  intros [k j0] I. cbn [fst]. rewrite owned_iff; [|rewrite Hnames; exact Hj|].
  - rewrite Hns. split.
    + intros (n & In' & <- & O). rewrite map_map in In'. apply in_map_iff in In' as (g & <- & Ig). cbn [jn_name jn_owner] in *.
      rewrite in_raw_name in O. rewrite in_raw_json.
      assert (g = f); [|congruence]. clear -Hn Hin Ig O. induction fs as [|h fs IH]; [contradiction|].
      inversion Hn as [|? ? Hnot Hn']; subst. destruct Hin as [->|Hin], Ig as [->|Ig]; auto.
      * exfalso; apply Hnot. rewrite <- O. apply List.in_map; exact Ig.
      * exfalso; apply Hnot. rewrite O. apply List.in_map; exact Hin.
    + intros ->. exists (JName (fname f) 0 (json_name f) (tagged (in_raw om f))). split; [|auto].
      rewrite map_map. apply in_map_iff. exists f. rewrite in_raw_name, in_raw_json. auto.
  - intros n In' Q. rewrite Hns, map_map in In'. apply in_map_iff in In' as (g & <- & Ig). cbn [jn_name] in *.
    rewrite in_raw_json in *. apply Hcase; [|exact Ig|exact Q]. unfold keys. change k with (fst (k, j0)). apply List.in_map. exact I.
Qed.

Lemma jget_inlined : forall om fs1 f fs2 gs m, inlined E om f gs ->
  (forall g hs, In g (fs1 ++ fs2) -> ~ inlined E om g hs) -> (forall g hs, In g gs -> ~ inlined E [] g hs) ->
  NoDup (map json_name (fs1 ++ gs ++ fs2)) -> NoDup (map fname (fs1 ++ f :: fs2)) ->
  (forall k g, In k (keys m) -> In g (fs1 ++ gs ++ fs2) -> fold_key k = fold_key (json_name g) -> k = json_name g) ->
  forall keep : string -> bool,
  (forall k, keep k = true <-> exists g, In g gs /\ starts_upper (fname g) /\ ftag g <> "-" /\ named_in_json g k) ->
  jget E om (fs1 ++ f :: fs2) f m =
  match filter (fun kj => keep (fst kj)) m with [] => None | l => Some (JObj l) end.
Proof.
  intros om fs1 f fs2 gs m Hf Hp Hg Hj Hn Hcase keep Hk. unfold jget.
  rewrite (proj2 (promotes_iff om f gs) Hf).
  assert (P1 : forall l, (forall g hs, In g l -> ~ inlined E om g hs) -> json_names E (map (in_raw om) l)
    = map (fun g => JName (fname g) 0 (json_name g) (tagged g)) (map (in_raw om) l)).
  { intros l H. apply names_plain. intros g I. apply in_map_iff in I as (h & <- & I). apply promotes_none. intros hs. apply H. exact I. }
  assert (Hns : json_names E (map (in_raw om) (fs1 ++ f :: fs2)) =
    map (fun g => JName (fname g) 0 (json_name g) (tagged g)) (map (in_raw om) fs1)
    ++ map (fun g => JName (fname f) 1 (json_name g) (tagged g)) (filter in_json gs)
    ++ map (fun g => JName (fname g) 0 (json_name g) (tagged g)) (map (in_raw om) fs2)).
  { rewrite map_app. cbn [map]. unfold json_names at 1. rewrite flat_map_app. cbn [flat_map].
    fold (json_names E (map (in_raw om) fs1)). fold (json_names E (map (in_raw om) fs2)).
    rewrite !P1 by (intros g hs I; apply Hp; apply in_or_app; auto).
    rewrite (proj2 (promotes_iff om f gs) Hf), inner_plain by (intros g I; apply promotes_none0; intros hs; apply Hg; exact I).
    rewrite in_raw_name. reflexivity. }
  assert (Hin : forall n, In n (json_names E (map (in_raw om) (fs1 ++ f :: fs2))) <->
    (exists g, In g (fs1 ++ fs2) /\ jn_name n = json_name g /\ n = JName (fname g) 0 (json_name g) (tagged (in_raw om g))) \/
    (exists g, In g gs /\ in_json g = true /\ n = JName (fname f) 1 (json_name g) (tagged g))).
  { intros n. rewrite Hns, !in_app_iff, !map_map, !in_map_iff. split.
    - intros [(g & <- & I)|[(g & <- & I)|(g & <- & I)]].
      + left. exists g. rewrite in_raw_name, in_raw_json. split; [apply in_or_app; left; exact I|auto].
      + right. exists g. apply filter_In in I as [I J]. auto.
      + left. exists g. rewrite in_raw_name, in_raw_json. split; [apply in_or_app; right; exact I|auto].
    - intros [(g & I & _ & ->)|(g & I & J & ->)].
      + apply in_app_or in I as [I|I]; [left|right; right]; exists g; rewrite in_raw_name, in_raw_json; auto.
      + right; left. exists g. split; [reflexivity|]. apply filter_In. auto. }
  assert (Hnd : NoDup (map jn_name (json_names E (map (in_raw om) (fs1 ++ f :: fs2))))).
  { rewrite Hns, !map_app, !map_map. cbn [jn_name].
    rewrite !(map_ext (fun x => json_name (in_raw om x)) json_name) by (intros; apply in_raw_json).
    rewrite !map_app in Hj. clear -Hj.
    revert Hj. generalize (map json_name fs1) as a. generalize (map json_name fs2) as b. intros b a.
    induction a as [|x a IH]; cbn [app].
    - induction gs as [|g gs IHg]; [auto|]. cbn [map app filter]. intros H. inversion H as [|? ? N D]; subst.
      destruct (in_json g); [|auto]. cbn [map app]. constructor; [|auto].
      intros I. apply N. apply in_app_or in I as [I|I]; apply in_or_app; [left|right; exact I].
      apply in_map_iff in I as (h & <- & I). apply List.in_map. apply filter_In in I. apply I.
    - intros H. inversion H as [|? ? N D]; subst. constructor; [|auto].
      intros I. apply N. rewrite !in_app_iff in *. destruct I as [I|[I|I]]; auto. right; left.
      apply in_map_iff in I as (h & <- & I). apply List.in_map. apply filter_In in I. apply I. }
  assert (Hown : forall kj, In kj m -> owned E (map (in_raw om) (fs1 ++ f :: fs2)) f kj = keep (fst kj)).
  { intros [k j0] I. cbn [fst]. apply eq_iff_eq_true. rewrite owned_iff; [|exact Hnd|].
    - rewrite Hk. split.
      + intros (n & In' & <- & O). apply Hin in In' as [(g & Ig & _ & ->)|(g & Ig & J & ->)]; cbn [jn_name jn_owner] in *.
        * exfalso. rewrite map_app in Hn. cbn [map] in Hn. apply NoDup_remove_2 in Hn. apply Hn. rewrite <- map_app, <- O.
          apply List.in_map. exact Ig.
        * exists g. apply in_json_iff in J as [J1 J2]. split; [exact Ig|]. split; [exact J1|]. split; [exact J2|].
          apply json_name_spec. reflexivity.
      + intros (g & Ig & J1 & J2 & N). apply json_name_spec in N. subst k.
        exists (JName (fname f) 1 (json_name g) (tagged g)). split; [|auto]. apply Hin. right. exists g.
        split; [exact Ig|]. split; [apply in_json_iff; auto|reflexivity].
    - intros n In' Q. assert (exists g, In g (fs1 ++ gs ++ fs2) /\ jn_name n = json_name g) as (g & Ig & Ng).
      { apply Hin in In' as [(g & Ig & N & _)|(g & Ig & _ & ->)].
        - exists g. split; [|exact N]. rewrite !in_app_iff in *. tauto.
        - exists g. split; [|reflexivity]. rewrite !in_app_iff. tauto. }
      rewrite Ng in *. apply Hcase; [|exact Ig|exact Q]. unfold keys. change k with (fst (k, j0)). apply List.in_map. exact I. }
  assert (F : filter (owned E (map (in_raw om) (fs1 ++ f :: fs2)) f) m = filter (fun kj => keep (fst kj)) m).
  { clear -Hown. induction m as [|kj m IH]; [reflexivity|]. cbn [filter]. rewrite (Hown kj (or_introl eq_refl)).
    rewrite IH by (intros x I; apply Hown; right; exact I). reflexivity. }
  rewrite F. destruct (filter (fun kj => keep (fst kj)) m); reflexivity.
Qed.
End Text.
