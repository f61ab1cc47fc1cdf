(* Per-field consequences of unmarshal_sound. *)

From Verif Require Import Base GoType SpecModel CollectModel CollectSpec CollectProofs DetModel DetSpec DetProofs DetSound DetFrame.

Section Cor.
Variable E : env.
Variable depth : nat.
Variable std : gtype -> gval -> option json -> gval * result unit.
Variable zero : gtype -> gval.
Variable assignable : gtype -> gtype -> bool.
Variable perm : list (string * json) -> list (string * json).
Hypothesis Hperm : forall m, Permutation (perm m) m.

Notation ju := (json_unmarshal E depth std zero assignable perm).
Notation dec := (decoded E std zero).

(* A successful call on a struct with fields fs, whose decodable fields are l, and a
   decodable field f of it, which Go code sees at path q. *)
Definition succeeded (om : list (string * svalue)) (ref : refmap) (t : gtype) (cur : gval) (dat : option json) (v : gval)
    (fs : list gfield) (l : list (list string * gfield)) (f : gfield) (q : list string) (ft : gtype) : Prop :=
  om <> [] /\ NoDup (keys ref) /\ (exists c, ju (SStruct c (Some om)) ref t cur dat = (v, Ok tt)) /\
  under E t = TStruct fs /\ flat E fs l /\ (exists p, In (p, f) l) /\ selects E fs (fname f) q ft.

Lemma field_of_success : forall om ref t cur dat v fs l f q ft,
  succeeded om ref t cur dat v fs l f q ft ->
  exists ref' ms, merged E ref t ref' /\ members dat ms /\
    field_value E std zero dec ref' (lookup (fname f) om) f ft (jget E om (map snd l) f ms) (fields_of v q).
Proof.
  intros om ref t cur dat v fs l f q ft (Hne & Hnd & (c & H) & Hu & Hl & (p & Hin) & Hsel).
  apply unmarshal_sound in H; [|exact Hperm|exact Hnd].
  inversion H as [? ? ? ? ? ? ? Hfo|? ? ? ? ? ? ? ref' fs' l' ms Hne' Hm Hu' Hl' Hms Hf Hfr]; subst.
  - destruct Hfo as [Hfo|Hfo]; [discriminate|congruence].
  - rewrite Hu in Hu'. inversion Hu'; subst fs'. rewrite <- (flat_fun _ _ _ Hl _ Hl') in *.
    exists ref', ms. split; [exact Hm|]. split; [exact Hms|].
    destruct (Hf _ _ Hin) as (q' & ft' & Hsel' & Hfv). destruct (selects_fun _ _ _ _ _ _ _ Hsel Hsel') as [-> ->]. exact Hfv.
Qed.

Lemma single_field : forall om ref t cur dat v fs l f q ft s,
  succeeded om ref t cur dat v fs l f q ft -> lookup (fname f) om = Some (VSingle s) ->
  exists ref' ms t' x, merged E ref t ref' /\ members dat ms /\
    lookup (class_of s) ref' = Some (RPtrTo t') /\ dec s ref' t' (zero t') (jget E om (map snd l) f ms) x /\
    ((pointer_like E ft /\ fields_of v q = XPtr t' x) \/ (~ pointer_like E ft /\ fields_of v q = x)).
Proof.
  intros om ref t cur dat v fs l f q ft s H Hs. apply field_of_success in H as (ref' & ms & Hm & Hms & Hfv).
  rewrite Hs in Hfv. inversion Hfv as [Hsp|j w Hsp|s' t' x Hsp [Hl Hd] Hp|s' t' x Hsp [Hl Hd] Hp|? ? ? ? Hsp|? ? ? ? ? ? Hsp|? ? ? Hsp|? ? ? Hsp];
    try discriminate; inversion Hsp; subst s'; [exists ref', ms, t', x|exists ref', ms, t', (fields_of v q)];
    (split; [exact Hm|]; split; [exact Hms|]; split; [exact Hl|]; split; [exact Hd|]);
    [left|right]; split; auto.
Qed.

(* A class given by the caller is the one used. *)
Lemma single_explicit : forall om ref t cur dat v fs l f q ft s t',
  succeeded om ref t cur dat v fs l f q ft -> lookup (fname f) om = Some (VSingle s) ->
  lookup (class_of s) ref = Some (RPtrTo t') -> pointer_like E ft ->
  exists x, fields_of v q = XPtr t' x.
Proof.
  intros om ref t cur dat v fs l f q ft s t' H Hs Hr Hp.
  destruct (single_field _ _ _ _ _ _ _ _ _ _ _ _ H Hs) as (ref' & ms & t2 & x & Hm & _ & Hl & _ & Hv).
  specialize (Hm (class_of s)). rewrite Hr in Hm. rewrite Hl in Hm. inversion Hm; subst.
  destruct Hv as [[_ Hv]|[Hn _]]; [eauto|contradiction].
Qed.

Lemma unknown_class : forall c om ref t cur dat v r fs l p f s,
  om <> [] -> NoDup (keys ref) -> ju (SStruct c (Some om)) ref t cur dat = (v, r) ->
  under E t = TStruct fs -> flat E fs l -> In (p, f) l -> lookup (fname f) om = Some (VSingle s) ->
  (lookup (class_of s) ref = None \/ lookup (class_of s) ref = Some RNilVal \/ exists i, lookup (class_of s) ref = Some (RImpls i)) ->
  (forall n, reaches E (implementations ref) (TPtr t) n -> ~ key_of E n (class_of s)) ->
  r <> Ok tt.
Proof.
  intros c om ref t cur dat v r fs l p f s Hne Hnd H Hu Hl Hin Hs Hc Hr ->.
  pose proof H as Hd. apply unmarshal_sound in Hd; [|exact Hperm|exact Hnd].
  inversion Hd as [? ? ? ? ? ? ? Hfo|? ? ? ? ? ? ? ref' fs' l' ms Hne' Hm Hu' Hl' Hms Hf Hfr]; subst.
  - destruct Hfo as [Hfo|Hfo]; [discriminate|congruence].
  - rewrite Hu in Hu'. inversion Hu'; subst fs'. rewrite <- (flat_fun _ _ _ Hl _ Hl') in *.
    destruct (Hf _ _ Hin) as (q & ft & Hsel & Hfv). rewrite Hs in Hfv.
    assert (Hno : forall t', lookup (class_of s) ref' <> Some (RPtrTo t')).
    { intros t' Ht'. specialize (Hm (class_of s)). rewrite Ht' in Hm.
      destruct Hc as [Hc|[Hc|[i Hc]]]; rewrite Hc in Hm; try discriminate;
        destruct Hm as (n & _ & Hre & Hk); eapply Hr; eauto. }
    inversion Hfv as [Hsp|j w Hsp|s' t' x Hsp [Hlk _] Hp|s' t' x Hsp [Hlk _] Hp|? ? ? ? Hsp|? ? ? ? ? ? Hsp|? ? ? Hsp|? ? ? Hsp];
      try discriminate; inversion Hsp; subst s'; eapply Hno; exact Hlk.
Qed.

Lemma list_field : forall om ref t cur dat v fs l f q ft specs e,
  succeeded om ref t cur dat v fs l f q ft -> lookup (fname f) om = Some (VList specs) -> under E (ftype f) = TSlice e ->
  exists ref' ms js r, merged E ref t ref' /\ members dat ms /\ elements (jget E om (map snd l) f ms) js /\
    fields_of v q = XSlice r /\ length r = length js /\
    forall k j, nth_error js k = Some j -> exists s t' x,
      (nth_error specs k = Some s \/ (length specs <= k /\ nth_error specs 0 = Some s)) /\
      lookup (class_of s) ref' = Some (RPtrTo t') /\ dec s ref' t' (zero t') (Some j) x /\ nth_error r k = Some (XPtr t' x).
Proof.
  intros om ref t cur dat v fs l f q ft specs e H Hs He. apply field_of_success in H as (ref' & ms & Hm & Hms & Hfv).
  rewrite Hs in Hfv. inversion Hfv as [Hsp|j w Hsp|s' t' x Hsp [Hl Hd] Hp|s' t' x Hsp [Hl Hd] Hp
    |specs' e' js r Hsp He' Hel Hlen Hall|specs' kt e' ms' r order Hsp He' Hen Ho Ho' Hn Hk Hall|? ? ? Hsp|? ? ? Hsp];
    try discriminate; try congruence.
  inversion Hsp; subst specs'. exists ref', ms, js, r. repeat split; auto.
  intros k j Hj. destruct (Hall k j Hj) as (s & t' & x & Hp & [Hl Hd] & Hn). exists s, t', x. auto.
Qed.

Lemma map_field : forall om ref t cur dat v fs l f q ft specs,
  succeeded om ref t cur dat v fs l f q ft -> lookup (fname f) om = Some (VMap specs) ->
  exists ref' ms es r, merged E ref t ref' /\ members dat ms /\ entries (jget E om (map snd l) f ms) es /\
    fields_of v q = XMap r /\ NoDup (keys r) /\ (forall k, In k (keys r) <-> In k (keys es)) /\
    forall k j, entry es k j -> exists s t' x,
      (lookup k specs = Some s \/ (lookup k specs = None /\ exists k', smallest specs k' s)) /\
      lookup (class_of s) ref' = Some (RPtrTo t') /\ dec s ref' t' (zero t') (Some j) x /\ lookup k r = Some (XPtr t' x).
Proof.
  intros om ref t cur dat v fs l f q ft specs H Hs. apply field_of_success in H as (ref' & ms & Hm & Hms & Hfv).
  rewrite Hs in Hfv. inversion Hfv as [Hsp|j w Hsp|s' t' x Hsp [Hl Hd] Hp|s' t' x Hsp [Hl Hd] Hp
    |? ? ? ? Hsp|? ? ? ? ? ? Hsp|specs' es r Hsp Hen Hn Hk Hall|? ? ? Hsp]; try discriminate.
  inversion Hsp; subst specs'. exists ref', ms, es, r. repeat split; auto; try (apply Hk; assumption).
  intros k j Hj. destruct (Hall k j Hj) as (s & t' & x & Hp & [Hl Hd] & Hlk). exists s, t', x. auto.
Qed.

Lemma map2_field : forall om ref t cur dat v fs l f q ft specs,
  succeeded om ref t cur dat v fs l f q ft -> lookup (fname f) om = Some (VMap2 specs) ->
  exists ref' ms es r, merged E ref t ref' /\ members dat ms /\ entries (jget E om (map snd l) f ms) es /\
    fields_of v q = XMap2 r /\ NoDup (keys r) /\
    (forall a b, In (a, b) (keys r) <-> exists j es', entry es a j /\ entries (Some j) es' /\ In b (keys es')) /\
    forall a j es' b j', entry es a j -> entries (Some j) es' -> entry es' b j' -> exists s t' x,
      picks_map2 specs a b s /\
      lookup (class_of s) ref' = Some (RPtrTo t') /\ dec s ref' t' (zero t') (Some j') x /\ lookup (a, b) r = Some (XPtr t' x).
Proof.
  intros om ref t cur dat v fs l f q ft specs H Hs. apply field_of_success in H as (ref' & ms & Hm & Hms & Hfv).
  rewrite Hs in Hfv. inversion Hfv as [Hsp|j w Hsp|s' t' x Hsp [Hl Hd] Hp|s' t' x Hsp [Hl Hd] Hp
    |? ? ? ? Hsp|? ? ? ? ? ? Hsp|? ? ? Hsp|specs' es r Hsp Hen Hn Hk Hall]; try discriminate.
  inversion Hsp; subst specs'. exists ref', ms, es, r. repeat split; auto; try (apply Hk; assumption).
  intros a j es' b j' Ha He Hb. destruct (Hall a j es' b j' Ha He Hb) as (s & t' & x & Hp & [Hl Hd] & Hlk). exists s, t', x. auto.
Qed.

Lemma listmap_field : forall om ref t cur dat v fs l f q ft s0 kt e,
  succeeded om ref t cur dat v fs l f q ft -> lookup (fname f) om = Some (VList [s0]) -> under E (ftype f) = TMap kt e ->
  exists ref' ms es r, merged E ref t ref' /\ members dat ms /\ entries (jget E om (map snd l) f ms) es /\
    fields_of v q = XMap r /\ NoDup (keys r) /\ (forall k, In k (keys r) <-> In k (keys es)) /\
    forall k j, entry es k j -> exists t' x,
      lookup (class_of s0) ref' = Some (RPtrTo t') /\ dec s0 ref' t' (zero t') (Some j) x /\ lookup k r = Some (XPtr t' x).
Proof.
  intros om ref t cur dat v fs l f q ft s0 kt e H Hs He. apply field_of_success in H as (ref' & ms & Hm & Hms & Hfv).
  rewrite Hs in Hfv. inversion Hfv as [Hsp|j w Hsp|s' t' x Hsp [Hl Hd] Hp|s' t' x Hsp [Hl Hd] Hp
    |specs' e' js r Hsp He' Hel Hlen Hall|specs' kt' e' es r order Hsp He' Hen Ho Ho' Hn Hk Hall|? ? ? Hsp|? ? ? Hsp];
    try discriminate; try congruence.
  inversion Hsp; subst specs'. exists ref', ms, es, r. repeat split; auto; try (apply Hk; assumption).
  intros k j Hj. assert (Hko : In k order) by (apply Ho'; apply entry_key; eauto).
  apply In_nth_error in Hko as [i Hi]. destruct (Hall i k j Hi Hj) as (s & t' & x & Hp & [Hl Hd] & Hlk).
  assert (s = s0) as ->.
  { destruct Hp as [Hp|[_ Hp]]; [|inversion Hp; reflexivity]. destruct i as [|[|i]]; inversion Hp; reflexivity. }
  exists t', x. auto.
Qed.

(* Any key order may be used for several classes, and one of them is. *)
Lemma listmap_field_any : forall om ref t cur dat v fs l f q ft specs kt e,
  succeeded om ref t cur dat v fs l f q ft -> lookup (fname f) om = Some (VList specs) -> under E (ftype f) = TMap kt e ->
  exists ref' ms es r, merged E ref t ref' /\ members dat ms /\ entries (jget E om (map snd l) f ms) es /\
    fields_of v q = XMap r /\ NoDup (keys r) /\ (forall k, In k (keys r) <-> In k (keys es)) /\
    forall k j, entry es k j -> exists s t' x, In s specs /\
      lookup (class_of s) ref' = Some (RPtrTo t') /\ dec s ref' t' (zero t') (Some j) x /\ lookup k r = Some (XPtr t' x).
Proof.
  intros om ref t cur dat v fs l f q ft specs kt e H Hs He. apply field_of_success in H as (ref' & ms & Hm & Hms & Hfv).
  rewrite Hs in Hfv. inversion Hfv as [Hsp|j w Hsp|s' t' x Hsp [Hl Hd] Hp|s' t' x Hsp [Hl Hd] Hp
    |specs' e' js r Hsp He' Hel Hlen Hall|specs' kt' e' es r order Hsp He' Hen Ho Ho' Hn Hk Hall|? ? ? Hsp|? ? ? Hsp];
    try discriminate; try congruence.
  inversion Hsp; subst specs'. exists ref', ms, es, r. repeat split; auto; try (apply Hk; assumption).
  intros k j Hj. assert (Hko : In k order) by (apply Ho'; apply entry_key; eauto).
  apply In_nth_error in Hko as [i Hi]. destruct (Hall i k j Hi Hj) as (s & t' & x & Hp & [Hl Hd] & Hlk).
  exists s, t', x. split; [|auto]. destruct Hp as [Hp|[_ Hp]]; eapply nth_error_In; exact Hp.
Qed.

Lemma plain_field : forall om ref t cur dat v fs l f q ft,
  succeeded om ref t cur dat v fs l f q ft -> lookup (fname f) om = None ->
  exists ms, members dat ms /\
    match jget E om (map snd l) f ms with
    | None => fields_of v q = zero (ftype f)
    | Some j => std (ftype f) (zero (ftype f)) (Some j) = (fields_of v q, Ok tt)
    end.
Proof.
  intros om ref t cur dat v fs l f q ft H Hs. apply field_of_success in H as (ref' & ms & Hm & Hms & Hfv).
  exists ms. split; [exact Hms|].
  rewrite Hs in Hfv. inversion Hfv as [Hsp Hj Hx|j w Hsp Hj Hstd Hx|? ? ? Hsp|? ? ? Hsp|? ? ? ? Hsp|? ? ? ? ? ? Hsp|? ? ? Hsp|? ? ? Hsp];
    try discriminate.
  - rewrite Hj. reflexivity.
  - rewrite Hj. exact Hstd.
Qed.

(* Hidden immediate fields are not touched, whatever the outcome. *)
Lemma hidden_untouched : forall c om ref t cur dat v r fs l f, om <> [] ->
  ju (SStruct c (Some om)) ref t cur dat = (v, r) -> under E t = TStruct fs -> flat E fs l ->
  NoDup (map fname fs) -> In f fs -> hidden f -> (forall p g, In (p, g) l -> fname g <> fname f) ->
  fields_of v [fname f] = fields_of cur [fname f].
Proof.
  intros c om ref t cur dat v r fs l f Hne H Hu Hl Hnd Hin Hh Hno.
  eapply unmarshal_frame; [exact Hne|exact H|exact Hu|exact Hl|].
  intros p g ft Hpg (_ & Hlast & _). simpl in Hlast. eapply Hno; [exact Hpg|congruence].
Qed.

(* With Go's selectors resolving every decodable field to itself, nothing but the
   decodable fields changes. *)
Lemma only_flat_touched : forall c om ref t cur dat v r fs l, om <> [] ->
  ju (SStruct c (Some om)) ref t cur dat = (v, r) -> under E t = TStruct fs -> flat E fs l ->
  (forall p f, In (p, f) l -> selects E fs (fname f) p (ftype f)) ->
  forall q, ~ In q (map fst l) -> fields_of v q = fields_of cur q.
Proof.
  intros c om ref t cur dat v r fs l Hne H Hu Hl Hsel q Hq.
  eapply unmarshal_frame; [exact Hne|exact H|exact Hu|exact Hl|].
  intros p f ft Hpf Hs. destruct (selects_fun _ _ _ _ _ _ _ Hs (Hsel _ _ Hpf)) as [-> _].
  apply Hq. change p with (fst (p, f)). apply List.in_map; exact Hpf.
Qed.

Lemma not_object_unchanged : forall c om ref t cur dat v r, om <> [] ->
  ju (SStruct c (Some om)) ref t cur dat = (v, r) -> (forall ms, ~ members dat ms) -> v = cur.
Proof.
  intros c om ref t cur dat v r Hne H Hno. destruct om as [|kv om]; [congruence|].
  cbn [json_unmarshal] in H. unfold with_spec in H.
  destruct (collect E (implementations ref) depth (TPtr t) []) as [auto|]; [|inversion H; reflexivity].
  destruct (under E t) as [n|u|u|u|k u|fs|ms|b]; try (inversion H; reflexivity).
  destruct (loop_fields E depth (kv :: om) [] fs) as [nfs|]; [|inversion H; reflexivity].
  destruct (has_dup (map nf_name nfs)); [inversion H; reflexivity|].
  destruct dat as [[|b|n|s|l|m]|]; simpl in H; try (inversion H; reflexivity);
    exfalso; eapply Hno; constructor.
Qed.

End Cor.
